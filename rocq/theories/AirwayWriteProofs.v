(** The texts of airway points are read back from airway.txt. *)
From Coq Require Import Reals Psatz ZifyBool ZifyN ZifyNat.
From Flocq Require Import Core BinarySingleNaN.
From Verif Require Import Base Num NumProofs Float FloatParse FloatReal Dms SpecDms DmsReal DmsProofs Fixed
  Peg Grammars SpecPeg PegProofs PegLang PegForward PegSkip Trees Airways AirwayTxt Places SpecPlaces PlacesProofs SpecAirwayWrite.
Local Open Scope string_scope.
Local Open Scope list_scope.
Notation G := airway_grammar.

(** * Numbers *)
Lemma show6_read x : moderate x -> exists s n y, show6 x = fixed_text s 6 n /\ parse_f64 (fixed_text s 6 n) = Some y /\ nearest6 x y.
Proof.
  intros [F L]. pose proof (finite_is x F) as I. set (r := real_value x) in *. set (s := is_sign_negative x) in *.
  destruct (scaled_close_k 6 x r s ltac:(lia) I) as [n [E C]]. change (10 ^ 6)%Z with 1000000%Z in C.
  assert (NB : (n < 1000000000)%N).
  { assert (IZR (Z.of_N n) < IZR 1000000000)%R; [|apply lt_IZR in H; lia]. apply Rabs_le_inv in C. pose proof (Rabs_pos r). lra. }
  exists s, n, (dec_float 53 1024 s n (- Z.of_nat 6)). split; [unfold show6; rewrite (fmt_fixed_text 6 x n E); reflexivity|].
  split; [apply parse_fixed|].
  pose proof (dec_float_signed s n 6 ltac:(lia) ltac:(change (10 ^ 15)%N with 1000000000000000%N; lia)) as I'.
  change (- Z.of_N 6)%Z with (- Z.of_nat 6)%Z in I'. change (10 ^ Z.of_N 6)%Z with 1000000%Z in I'.
  destruct (finite_of _ _ _ I') as [F' V]. set (y := dec_float _ _ _ _ _) in *. clearbody y.
  split; [exact F'|]. set (v := (IZR (Z.of_N n) / 1000000)%R) in *.
  assert (VB : (0 <= v <= 1000)%R).
  { unfold v. assert (0 <= IZR (Z.of_N n) <= 1000000000)%R by (split; apply IZR_le; lia). lra. }
  assert (ER : (Rabs (rnd v - v) <= bpow radix2 (10 - 54))%R).
  { apply rnd_err; [lia|]. rewrite Rabs_pos_eq by lra. change (bpow radix2 10) with 1024%R. lra. }
  change (bpow radix2 (10 - 54)) with (/ 17592186044416)%R in ER. apply Rabs_le_inv in ER. apply Rabs_le_inv in C.
  assert (S : r = signed s (Rabs r)).
  { destruct I as [b [_ [B [_ SG]]]]. rewrite <- SG, <- B. destruct b as [t|t| |t m e Hb]; cbn [Bsign B2R]; try (rewrite Rabs_R0; destruct t; cbn; lra).
    - rewrite Rabs_R0. cbn. reflexivity.
    - rewrite <- F2R_Zabs, abs_cond_Zopp. cbn [Z.abs]. destruct t; cbn [cond_Zopp signed]; [|reflexivity]. rewrite <- F2R_Zopp. reflexivity. }
  exists (if s then - Z.of_N n else Z.of_N n)%Z. unfold millionths. rewrite V. fold r. rewrite S. clearbody s. destruct s; cbn [signed] in *.
  - rewrite opp_IZR. split; apply Rabs_le; unfold v in *; lra.
  - split; apply Rabs_le; unfold v in *; lra.
Qed.

(** * Without comments *)
Definition calm (r : text) : Prop := stops (fun c => (c =? 59) || (c =? 47))%N r.
Lemma calm_comment r : calm r -> ~ comment_start r.
Proof. intros C [r' [-> | ->]]; discriminate C. Qed.
Lemma skip_ok r : calm r -> ok G NonAtomic Skip [] r [].
Proof.
  intros C b k. eapply m_skip.
  - apply skipped_comment; [apply get_None; reflexivity | unfold defined; eapply get_Some_key; reflexivity].
  - apply (ok_many_nil G NonAtomic (Call "COMMENT") r). apply comment_ko; [reflexivity | apply calm_comment, C].
Qed.
Lemma ok_seq x y c1 c2 r t1 t2 : ok G NonAtomic x c1 (c2 ++ r) t1 -> calm (c2 ++ r) -> ok G NonAtomic y c2 r t2 ->
  ok G NonAtomic (Seq x y) (c1 ++ c2) r (t1 ++ t2).
Proof. intros H1 C H2. apply ok_then; [exact H1|]. apply (ok_then G NonAtomic Skip y [] c2 r [] t2); [apply skip_ok, C | exact H2]. Qed.
Lemma ko_seq2 x y c1 r t1 : ok G NonAtomic x c1 r t1 -> calm r -> ko G NonAtomic y r -> ko G NonAtomic (Seq x y) (c1 ++ r).
Proof. intros H1 C H2. eapply ko_then2; [exact H1|]. apply (ko_then2 G NonAtomic Skip y [] r []); [apply skip_ok, C | exact H2]. Qed.
Lemma ok_plus x f c r : one G NonAtomic x f -> (forall c, f c = true -> c <> 59 /\ c <> 47)%N -> c <> [] -> Forall (fun x => f x = true) c -> stops f r -> calm r ->
  ok G NonAtomic (Plus x) c r [].
Proof.
  intros [X1 X2] D NE F S C.
  assert (M : forall c, Forall (fun x => f x = true) c -> calm (c ++ r)).
  { intros d Fd. destruct Fd as [|y d Y _]; [exact C|]. unfold calm. cbn [app stops]. destruct (D y Y). lia. }
  destruct F as [|y c Y F]; [contradiction NE; reflexivity|].
  apply (ok_seq x (Star x) [y] c r [] []); [apply X1, Y | apply M, F|].
  destruct F as [|z c Z F]; [apply ok_star_nil, X2, S|]. apply ok_opt.
  apply (ok_then G NonAtomic x _ [z] c r [] []); [apply X1, Z|].
  clear NE. induction F as [|u c U F IH].
  - apply ok_many_nil. apply (ko_then2 G NonAtomic Skip x [] r []); [apply skip_ok, C | apply X2, S].
  - apply (ok_many_cons G NonAtomic (Then Skip x) [u] c r [] []); [|apply IH].
    apply (ok_then G NonAtomic Skip x [] [u] (c ++ r) [] []); [apply skip_ok; apply (M (u :: c)); constructor; assumption | apply X1, U].
Qed.

(** * Pieces *)
Lemma designator_ok t r : name t -> stops name_char r -> calm r -> ok G NonAtomic (Call "designator") t r [T "designator" t []].
Proof.
  intros [N F] S C. apply (ok_call G NonAtomic "designator" KNormal (Plus (ASCII_ALPHA_UPPER // ASCII_DIGIT)) t r []); [reflexivity|].
  apply (ok_plus _ name_char); [|intros c H; unfold name_char in H; lia | exact N | exact F | exact S | exact C].
  apply (one_ext G NonAtomic _ _ name_char (one_alt G NonAtomic _ _ _ _ (one_sat G NonAtomic _) (one_sat G NonAtomic _))).
  intros c. unfold name_char, is_upper, is_digit. lia.
Qed.

Lemma tab_ok r : ok G NonAtomic TAB tab r [].
Proof. apply ok_str. Qed.
Lemma tab_calm r : calm (tab ++ r).
Proof. reflexivity. Qed.
Lemma digits_calm c r : Forall (fun c => is_digit c = true) c -> c <> [] -> calm (c ++ r).
Proof. intros F N. destruct F as [|x c X _]; [contradiction N; reflexivity|]. unfold calm, is_digit in *. cbn [app stops]. lia. Qed.
Lemma name_calm c r : name c -> calm (c ++ r).
Proof. intros [N F]. destruct F as [|x c X _]; [contradiction N; reflexivity|]. unfold calm, name_char in *. cbn [app stops]. lia. Qed.
Lemma fixed_calm s n r : calm (fixed_text s 6 n ++ r).
Proof.
  unfold fixed_text, fixed_body. destruct s; [reflexivity|]. rewrite <- app_assoc. apply digits_calm; [apply digits0 | apply fmt_uint_nonnil].
Qed.

Lemma decimal_ok s n r : stops is_digit r -> ok G NonAtomic (Call "coord_part") (fixed_text s 6 n) r [T "coord_part" (fixed_text s 6 n) [T "DECIMAL" (fixed_text s 6 n) []]].
Proof.
  intros S. apply (ok_call G NonAtomic "coord_part" KCompound (Call "DECIMAL") _ r); [reflexivity|].
  change (body_atom "coord_part" KCompound NonAtomic) with Compound.
  apply (ok_call G Compound "DECIMAL" KAtomic (Opt (str "-") ~~ Plus ASCII_DIGIT ~~ str "." ~~ Plus ASCII_DIGIT) _ r []); [reflexivity|].
  change (body_atom "DECIMAL" KAtomic Compound) with Atomic.
  assert (X : fixed_text s 6 n = (if s then s2t "-" else []) ++ fixed_body 6 n) by (destruct s; reflexivity). rewrite X.
  set (A := fmt_uint 10 (n / 10 ^ N.of_nat 6)). set (B := pad_left 48 6 (fmt_uint 10 (n mod 10 ^ N.of_nat 6))).
  assert (FA : Forall (fun c => is_digit c = true) A) by apply digits0. assert (NA : A <> []) by apply fmt_uint_nonnil.
  assert (FB : Forall (fun c => is_digit c = true) B) by apply digits_chars. assert (NB : B <> []) by apply digits_nonnil.
  change (fixed_body 6 n) with (A ++ s2t "." ++ B).
  apply (ok_seq_at G Atomic _ _ _ _ r [] []); [discriminate| |].
  - destruct s; [apply ok_opt, ok_str|]. apply ok_opt_no, ko_str. intros r' E. destruct FA as [|x A' D _]; [contradiction NA; reflexivity|].
    cbn in E. injection E as -> _. discriminate D.
  - apply (ok_seq_at G Atomic _ _ _ _ r [] []); [discriminate | apply ok_plus_sat; [discriminate | exact NA | exact FA | reflexivity]|].
    apply (ok_seq_at G Atomic _ _ _ _ r [] []); [discriminate | apply ok_str|]. apply ok_plus_sat; [discriminate | exact NB | exact FB | exact S].
Qed.
Definition coord_tree (s : bool) (n : N) (s' : bool) (n' : N) : tree :=
  T "coord" (fixed_text s 6 n ++ tab ++ fixed_text s' 6 n')
    [T "coord_part" (fixed_text s 6 n) [T "DECIMAL" (fixed_text s 6 n) []]; T "coord_part" (fixed_text s' 6 n') [T "DECIMAL" (fixed_text s' 6 n') []]].
Lemma coord_ok s n s' n' r : stops is_digit r -> ok G NonAtomic (Call "coord") (fixed_text s 6 n ++ tab ++ fixed_text s' 6 n') r [coord_tree s n s' n'].
Proof.
  intros S. apply (ok_call G NonAtomic "coord" KNormal (&"coord_part" ~~ TAB ~~ &"coord_part") _ r); [reflexivity|].
  apply (ok_seq _ _ _ _ r [_] [_]); [apply decimal_ok; reflexivity | reflexivity|].
  apply (ok_seq _ _ _ _ r [] [_]); [apply tab_ok | apply fixed_calm | apply decimal_ok, S].
Qed.
Lemma coord_reads p : somewhere p -> exists s n s' n' p', show6 (py p) = fixed_text s 6 n /\ show6 (px p) = fixed_text s' 6 n' /\
  airway_coord (coord_tree s n s' n') = Ret p' /\ nearest p p'.
Proof.
  intros [X Y]. destruct (show6_read _ X) as [s' [n' [x [E' [P' N']]]]]. destruct (show6_read _ Y) as [s [n [y [E [P N]]]]].
  exists s, n, s', n', (x, y). split; [exact E|]. split; [exact E'|]. split; [|split; assumption].
  unfold airway_coord, coord_tree. cbn [kids_of next obind text_of]. rewrite P, P'. reflexivity.
Qed.

Definition level_text (o : option N) : text := match o with Some l => pad_left 48 5 (fmt_uint 10 l) | None => [] end.
Definition level_tree (o : option N) : tree := match o with Some _ => T "level" (level_text o) [] | None => T "not_established" [] [] end.
Lemma level_tree_ok o r : ok G NonAtomic (&"level" // &"not_established") (level_text o) (tab ++ r) [level_tree o].
Proof.
  destruct o as [l|]; cbn [level_text level_tree].
  - apply ok_alt1. apply (ok_call G NonAtomic "level" KNormal (Plus ASCII_DIGIT) _ _ []); [reflexivity|].
    apply (ok_plus _ is_digit); [apply one_sat | intros c H; unfold is_digit in H; lia | apply digits_nonnil | apply digits_chars | reflexivity | reflexivity].
  - apply ok_alt2.
    + eapply ko_call; [reflexivity|]. apply ko_seq1, ko_sat. reflexivity.
    + apply (ok_call G NonAtomic "not_established" KNormal (str "NESTB" // str "") _ _ []); [reflexivity|]. apply ok_alt2; [|apply ok_str].
      apply ko_str. intros r' E. discriminate E.
Qed.
Lemma level_reads o : (forall l, o = Some l -> (l < 2 ^ 32)%N) -> airway_level (level_tree o) = Ret o.
Proof.
  intros L. destruct o as [l|]; [|reflexivity]. unfold airway_level. cbn [level_tree is_rule rule_of text_of level_text]. cbn [string_dec]. 
  assert (E : parse_u32 (pad_left 48 5 (fmt_uint 10 l)) = Some l) by (apply parse_uint_fmt; [lia | lia | specialize (L l eq_refl); unfold u32_max; lia]).
  change (is_rule (T "level" (pad_left 48 5 (fmt_uint 10 l)) []) "not_established") with false. 
  change (is_rule (T "level" (pad_left 48 5 (fmt_uint 10 l)) []) "level") with true. cbv iota. rewrite E. reflexivity.
Qed.
Definition flag_text (b : bool) : text := if b then s2t "Y" else s2t "N".
Definition flag_tree (b : bool) : tree := if b then T "TRUE" (s2t "Y") [] else T "FALSE" (s2t "N") [].
Lemma flag_ok b r : ok G NonAtomic (Call "bool") (flag_text b) r [flag_tree b].
Proof.
  apply (ok_call G NonAtomic "bool" KSilent (&"TRUE" // &"FALSE") _ r [flag_tree b]); [reflexivity|]. destruct b.
  - apply ok_alt1. apply (ok_call G NonAtomic "TRUE" KNormal (str "Y") _ r []); [reflexivity | apply ok_str].
  - apply ok_alt2; [eapply ko_call; [reflexivity | apply ko_str; discriminate]|].
    apply (ok_call G NonAtomic "FALSE" KNormal (str "N") _ r []); [reflexivity | apply ok_str].
Qed.

(** * Neighbours *)
Lemma empty_ok r : ok G NonAtomic (&"no_neighbour" // &"neighbour") (slot_text None) r [T "no_neighbour" (slot_text None) []].
Proof.
  apply ok_alt1. eapply ok_eq; [eapply ok_call; [reflexivity|]|reflexivity|reflexivity].
  change (body_atom "no_neighbour" KNormal NonAtomic) with NonAtomic.
  assert (O : forall r', calm r' -> stops (fun c => c =? 48)%N r' -> ok G NonAtomic (TAB ~~ Opt (str "0")) tab r' []).
  { intros r' C S. apply (ok_seq _ _ tab [] r' [] []); [apply tab_ok | exact C|]. apply ok_opt_no, ko_str. intros r'' ->. discriminate S. }
  change (slot_text None) with ((tab ++ tab ++ tab ++ tab ++ tab) ++ s2t "N").
  apply (ok_seq _ _ _ _ r [] []); [|reflexivity | apply ok_str].
  repeat (apply (ok_seq _ _ _ _ _ [] []); [apply O; reflexivity | reflexivity|]). apply O; reflexivity.
Qed.
Notation part := (TAB ~~ Opt (str "0")).
Lemma part_ko r : stops (fun c => c =? 9)%N r -> ko G NonAtomic part r.
Proof. intros S. apply ko_seq1, ko_str. intros r' ->. discriminate S. Qed.
Lemma part_ok R : calm R -> calm (tl R) ->
  (exists R', R = 48%N :: R' /\ ok G NonAtomic part (tab ++ [48%N]) R' []) \/ (stops (fun c => c =? 48)%N R /\ ok G NonAtomic part tab R []).
Proof.
  intros C C'. destruct R as [|x R]; [right|destruct (N.eqb_spec x 48) as [->|N]; [left|right]].
  - split; [exact I|]. apply (ok_seq _ _ tab [] [] [] []); [apply tab_ok | exact C|]. apply ok_opt_no, ko_str. discriminate.
  - exists R. split; [reflexivity|]. apply (ok_seq _ _ tab [48%N] R [] []); [apply tab_ok | reflexivity | apply ok_opt, ok_str].
  - split; [cbn; apply N.eqb_neq, N|]. apply (ok_seq _ _ tab [] (x :: R) [] []); [apply tab_ok | exact C|]. apply ok_opt_no, ko_str.
    intros r' E. injection E as -> _. contradiction N. reflexivity.
Qed.
Lemma not_empty t s n r : name t -> ko G NonAtomic (Call "no_neighbour") (tab ++ t ++ tab ++ fixed_text s 6 n ++ r).
Proof.
  intros NT. eapply ko_call; [reflexivity|]. change (body_atom "no_neighbour" KNormal NonAtomic) with NonAtomic. apply ko_seq1.
  assert (H : exists x t', t = x :: t' /\ name_char x = true /\ (t' = [] \/ exists y t'', t' = y :: t'' /\ name_char y = true)).
  { destruct NT as [N F]. destruct F as [|x t X F]; [contradiction N; reflexivity|]. exists x, t. split; [reflexivity|]. split; [exact X|].
    destruct F as [|y t Y F]; [left; reflexivity | right; eauto]. }
  destruct H as [x [t' [-> [X T]]]]. assert (XC : (x <> 59 /\ x <> 47 /\ x <> 9)%N) by (unfold name_char in X; lia).
  set (R := fixed_text s 6 n ++ r) in *.
  assert (HR : exists d R' , R = d :: R' /\ (d =? 9)%N = false /\ calm R /\ calm R' /\ stops (fun c => c =? 9)%N R').
  { unfold R, fixed_text, fixed_body. pose proof (digits0 (n / 10 ^ N.of_nat 6)) as FA. pose proof (fmt_uint_nonnil 10 (n / 10 ^ N.of_nat 6)) as NA.
    set (A := fmt_uint 10 (n / 10 ^ N.of_nat 6)) in *. clearbody A. set (B := pad_left _ _ _). clearbody B.
    destruct FA as [|d A D FA]; [contradiction NA; reflexivity|]. unfold is_digit in D. destruct s.
    - exists 45%N, ((d :: A) ++ s2t "." ++ B ++ r). rewrite <- ?app_comm_cons. rewrite <- ?app_assoc.
      split; [reflexivity|]. unfold calm. cbn [app stops]. repeat split; lia.
    - exists d, (A ++ s2t "." ++ B ++ r). rewrite <- ?app_comm_cons. rewrite <- ?app_assoc. split; [reflexivity|].
      split; [lia|]. unfold calm. cbn [app stops]. split; [lia|]. destruct FA as [|d' A D' FA]; [split; reflexivity|].
      unfold is_digit in D'. cbn [app stops]. split; lia. }
  destruct HR as [d [R' [ER [D [CR [CR' SR']]]]]]. clearbody R.
  assert (CT : calm (t' ++ tab ++ R) /\ (stops (fun c => c =? 9)%N (t' ++ tab ++ R) \/ t' = [])).
  { destruct T as [-> | [y [t'' [-> Y]]]]; [split; [reflexivity | right; reflexivity]|].
    unfold name_char in Y. unfold calm. cbn [app stops]. split; [lia | left; lia]. }
  destruct CT as [CT ST]. change ((x :: t') ++ tab ++ R) with (x :: t' ++ tab ++ R).
  destruct (part_ok (x :: t' ++ tab ++ R)) as [[Q [E O]]|[_ O]]; [unfold calm; cbn [stops]; lia | exact CT| |].
  - injection E as -> <-. change (tab ++ 48%N :: t' ++ tab ++ R) with ((tab ++ [48%N]) ++ t' ++ tab ++ R).
    apply (ko_seq2 _ _ _ _ []); [exact O | exact CT|]. destruct ST as [ST|ST]; [apply ko_seq1, part_ko, ST|]. rewrite ST in *. cbn [app].
    change (9%N :: R) with (tab ++ R).
    destruct (part_ok R) as [[Q [E O']]|[_ O']]; [exact CR | rewrite ER; exact CR'| |].
    + rewrite ER in E. injection E as -> <-. rewrite ER. change (tab ++ 48%N :: R') with ((tab ++ [48%N]) ++ R').
      apply (ko_seq2 _ _ _ _ []); [exact O' | exact CR'|]. apply ko_seq1, part_ko, SR'.
    + apply (ko_seq2 _ _ _ _ []); [exact O' | exact CR|]. apply ko_seq1, part_ko. rewrite ER. exact D.
  - apply (ko_seq2 _ _ _ _ []); [exact O | unfold calm; cbn [stops]; lia|]. apply ko_seq1, part_ko. cbn [stops]. lia.
Qed.
Lemma neighbour_ok a r : good_fix a -> exists s n s' n' p',
  ok G NonAtomic (&"no_neighbour" // &"neighbour") (slot_text (Some a)) r
    [T "neighbour" (slot_text (Some a)) [T "designator" (af_name a) []; coord_tree s n s' n'; level_tree (af_min a); flag_tree (af_valid a)]] /\
  airway_coord (coord_tree s n s' n') = Ret p' /\ nearest (af_pos a) p'.
Proof.
  intros [N [P L]]. destruct (coord_reads _ P) as [s [n [s' [n' [p' [E [E' [C NE]]]]]]]]. exists s, n, s', n', p'. split; [|auto].
  set (X := fixed_text s 6 n). set (Y := fixed_text s' 6 n').
  assert (W : slot_text (Some a) = tab ++ af_name a ++ tab ++ (X ++ tab ++ Y) ++ tab ++ level_text (af_min a) ++ tab ++ flag_text (af_valid a)).
  { unfold slot_text, show_airway_fix. rewrite E, E'. rewrite <- !app_assoc. reflexivity. }
  rewrite W. clear W. apply ok_alt2.
  - rewrite <- !app_assoc. apply not_empty, N.
  - eapply ok_eq; [eapply ok_call; [reflexivity|]|reflexivity|reflexivity]. change (body_atom "neighbour" KNormal NonAtomic) with NonAtomic.
    apply (ok_seq _ _ _ _ r [] [_; _; _; _]); [apply tab_ok | rewrite <- app_assoc; apply name_calm, N|].
    apply (ok_seq _ _ _ _ r [_] [_; _; _]); [rewrite <- !app_assoc; apply designator_ok; [exact N | reflexivity | reflexivity] | reflexivity|].
    apply (ok_seq _ _ _ _ r [] [_; _; _]); [apply tab_ok | rewrite <- !app_assoc; apply fixed_calm|].
    apply (ok_seq _ _ _ _ r [_] [_; _]); [apply coord_ok; reflexivity | reflexivity|].
    apply (ok_seq _ _ _ _ r [] [_; _]); [apply tab_ok| |].
    + rewrite <- app_assoc. destruct (af_min a); [apply digits_calm; [apply digits_chars | apply digits_nonnil] | reflexivity].
    + apply (ok_seq _ _ _ _ r [_] [_]); [rewrite <- app_assoc; apply level_tree_ok | reflexivity|].
      apply (ok_seq _ _ _ _ r [] [_]); [apply tab_ok | destruct (af_valid a); reflexivity | apply flag_ok].
Qed.

Definition slot_tree (o : option airway_fix) (t : tree) : Prop :=
  match o with
  | None => t = T "no_neighbour" (slot_text None) []
  | Some a => exists s n s' n', t = T "neighbour" (slot_text (Some a)) [T "designator" (af_name a) []; coord_tree s n s' n'; level_tree (af_min a); flag_tree (af_valid a)]
  end.
Lemma slot_ok o r : good_slot o -> exists t o', ok G NonAtomic (&"no_neighbour" // &"neighbour") (slot_text o) r [t] /\
  airway_fix_parse t = Ret o' /\ slot_read o o'.
Proof.
  intros Go. destruct o as [a|].
  - destruct (neighbour_ok a r (Go a eq_refl)) as [s [n [s' [n' [p' [O [C NE]]]]]]]. eexists _, (Some (mkAfix (af_name a) p' (af_valid a) (af_min a))).
    split; [exact O|]. split; [|repeat split; try reflexivity; apply NE].
    unfold airway_fix_parse. set (t := T "neighbour" _ _). change (is_rule t "no_neighbour") with false. change (is_rule t "neighbour") with true. cbv iota.
    subst t. cbn [kids_of next obind text_of]. rewrite C. cbn [obind]. rewrite level_reads by (apply (Go a eq_refl)). cbn [obind].
    destruct (af_valid a); reflexivity.
  - eexists _, None. split; [apply empty_ok|]. split; [reflexivity | exact I].
Qed.
Lemma type_ok ty r : stops (fun c => (c =? 66) || (c =? 72) || (c =? 76))%N r ->
  ok G NonAtomic (Call "airway_type") (show_type ty) r [T "airway_type" (show_type ty) []].
Proof.
  intros S. apply (ok_call G NonAtomic "airway_type" KNormal (str "B" // str "H" // str "L" // str "") _ r []); [reflexivity|].
  assert (K : forall c, In c [66; 72; 76]%N -> ko G NonAtomic (Str [c]) r).
  { intros c I. apply ko_str. intros r' ->. cbn in S, I. destruct I as [<-|[<-|[<-|[]]]]; discriminate S. }
  destruct ty; cbn [show_type].
  - apply ok_alt2; [apply ko_str; discriminate|]. apply ok_alt1, ok_str.
  - apply ok_alt2; [apply ko_str; discriminate|]. apply ok_alt2; [apply ko_str; discriminate|]. apply ok_alt1, ok_str.
  - apply ok_alt1, ok_str.
  - apply ok_alt2; [apply (K 66%N); cbn; tauto|]. apply ok_alt2; [apply (K 72%N); cbn; tauto|]. apply ok_alt2; [apply (K 76%N); cbn; tauto|]. apply ok_str.
Qed.
Lemma newline_ok r : stops is_nl r -> calm r -> ok G NonAtomic (Call "NL") [10%N] r [].
Proof.
  intros S C. apply (ok_call G NonAtomic "NL" KSilent (Plus NEWLINE) _ r []); [reflexivity|].
  apply (ok_seq _ _ [10%N] [] r [] []); [apply ok_newline_lf | exact C|]. apply ok_star_nil, ko_newline, S.
Qed.
Lemma line_ok l r : good_line l -> stops is_nl r -> calm r -> exists t l', ok G NonAtomic (Call "airway") (line_text l) r [t] /\ line_read l l' /\
  rule_of t = "airway" /\ forall acc, airway_pair acc t = unwrap (insert_all acc (line_segments l')).
Proof.
  intros [N [P [A [S1 S2]]]] S C. destruct (coord_reads _ P) as [s [n [s' [n' [p' [E [E' [CO NE]]]]]]]].
  destruct (slot_ok (l_second l) ([10%N] ++ r) S2) as [t2 [o2 [O2 [P2 R2]]]].
  destruct (slot_ok (l_first l) (slot_text (l_second l) ++ [10%N] ++ r) S1) as [t1 [o1 [O1 [P1 R1]]]].
  set (X := fixed_text s 6 n) in *. set (Y := fixed_text s' 6 n') in *.
  assert (W : line_text l = l_name l ++ tab ++ (X ++ tab ++ Y) ++ tab ++ s2t "14" ++ tab ++ l_airway l ++ tab ++ show_type (l_type l) ++
    slot_text (l_first l) ++ slot_text (l_second l) ++ [10%N]).
  { unfold line_text. rewrite E, E'. rewrite <- !app_assoc. reflexivity. }
  exists (T "airway" (line_text l) [T "designator" (l_name l) []; coord_tree s n s' n'; T "designator" (l_airway l) []; T "airway_type" (show_type (l_type l)) []; t1; t2]), (mkLine (l_name l) p' (l_airway l) (l_type l) o1 o2). split; [|split; [|split]].
  - eapply ok_eq; [eapply ok_call; [reflexivity|]|reflexivity|reflexivity]. change (body_atom "airway" KNormal NonAtomic) with NonAtomic. rewrite W.
    apply (ok_seq _ _ _ _ r [_] [_; _; _; _; _]); [rewrite <- !app_assoc; apply designator_ok; [exact N | reflexivity | reflexivity] | reflexivity|].
    apply (ok_seq _ _ _ _ r [] [_; _; _; _; _]); [apply tab_ok | rewrite <- !app_assoc; apply fixed_calm|].
    apply (ok_seq _ _ _ _ r [_] [_; _; _; _]); [apply coord_ok; reflexivity | reflexivity|].
    apply (ok_seq _ _ _ _ r [] [_; _; _; _]); [apply tab_ok | reflexivity|].
    apply (ok_seq _ _ _ _ r [] [_; _; _; _]); [apply ok_str | reflexivity|].
    apply (ok_seq _ _ _ _ r [] [_; _; _; _]); [apply tab_ok | rewrite <- !app_assoc; apply name_calm, A|].
    apply (ok_seq _ _ _ _ r [_] [_; _; _]); [rewrite <- !app_assoc; apply designator_ok; [exact A | reflexivity | reflexivity] | reflexivity|].
    apply (ok_seq _ _ _ _ r [] [_; _; _]); [apply tab_ok | destruct (l_type l); reflexivity|].
    apply (ok_seq _ _ _ _ r [_] [_; _]); [apply type_ok; reflexivity | reflexivity|].
    apply (ok_seq _ _ _ _ r [t1] [_]); [rewrite <- !app_assoc; exact O1 | reflexivity|].
    apply (ok_seq _ _ _ _ r [t2] []); [exact O2 | reflexivity|]. apply newline_ok; assumption.
  - repeat split; try reflexivity; try apply NE; assumption.
  - reflexivity.
  - intros acc. unfold airway_pair. set (t := T "airway" _ _). change (is_rule t "airway") with true. cbv iota. subst t.
    cbn [app kids_of next obind text_of]. rewrite CO. cbn [obind].
    assert (TY : airway_type_parse (T "airway_type" (show_type (l_type l)) []) = Ret (l_type l)) by (destruct (l_type l); reflexivity).
    rewrite TY. cbn [obind airway_segments next]. rewrite P1. cbn [obind].
    unfold line_segments. cbn [l_first l_second l_name l_airway l_pos l_type flat_map].
    destruct o1 as [a1|]; cbn [app insert_all].
    + assert (B1 : insert_seg acc (mkSeg (l_airway l) (l_name l) p' (af_name a1) (af_pos a1) (af_valid a1) (af_min a1) (l_type l)) = insert_segment acc (l_airway l) (l_name l) p' a1 (l_type l)) by (destruct a1; reflexivity).
      rewrite B1. destruct (insert_segment acc (l_airway l) (l_name l) p' a1 (l_type l)) as [acc'|]; [|reflexivity]. cbn [unwrap obind]. rewrite P2. cbn [obind].
      destruct o2 as [a2|]; cbn [app insert_all]; [|reflexivity].
      assert (B2 : insert_seg acc' (mkSeg (l_airway l) (l_name l) p' (af_name a2) (af_pos a2) (af_valid a2) (af_min a2) (l_type l)) = insert_segment acc' (l_airway l) (l_name l) p' a2 (l_type l)) by (destruct a2; reflexivity).
      rewrite B2. destruct (insert_segment acc' (l_airway l) (l_name l) p' a2 (l_type l)); reflexivity.
    + rewrite P2. cbn [obind]. destruct o2 as [a2|]; cbn [app insert_all]; [|reflexivity].
      assert (B2 : insert_seg acc (mkSeg (l_airway l) (l_name l) p' (af_name a2) (af_pos a2) (af_valid a2) (af_min a2) (l_type l)) = insert_segment acc (l_airway l) (l_name l) p' a2 (l_type l)) by (destruct a2; reflexivity).
      rewrite B2. destruct (insert_segment acc (l_airway l) (l_name l) p' a2 (l_type l)); reflexivity.
Qed.

(** * Files *)
Lemma line_start l : good_line l -> forall r, stops is_nl (line_text l ++ r) /\ calm (line_text l ++ r) /\ line_text l <> [].
Proof.
  intros [[N F] _] r. unfold line_text. destruct F as [|x t X _]; [contradiction N; reflexivity|].
  unfold name_char in X. unfold calm, is_nl. cbn [app stops]. split; [lia|]. split; [lia | discriminate].
Qed.
Lemma text_start ls : Forall good_line ls -> stops is_nl (airway_text ls) /\ calm (airway_text ls).
Proof. intros F. destruct F as [|l ls L _]; [split; exact I|]. split; apply line_start; exact L. Qed.
Lemma insert_all_app g l1 l2 : insert_all g (l1 ++ l2) = match insert_all g l1 with Some g => insert_all g l2 | None => None end.
Proof. revert g. induction l1 as [|x l1 IH]; intros g; [reflexivity|]. cbn [app insert_all]. destruct (insert_seg g x); [apply IH | reflexivity]. Qed.
Lemma lines_ok ls : Forall good_line ls -> exists ts ls', Forall2 line_read ls ls' /\
  ok G NonAtomic (Many (Then Skip (Call "airway"))) (airway_text ls) [] ts /\
  forall acc rest, ofold airway_pair (ts ++ rest) acc = do acc <- unwrap (insert_all acc (flat_map line_segments ls')); ofold airway_pair rest acc.
Proof.
  intros F. induction F as [|l ls L F [ts [ls' [R [O E]]]]].
  - exists [], []. split; [constructor|]. split; [|reflexivity]. apply ok_many_nil.
    apply (ko_then2 G NonAtomic Skip _ [] [] []); [apply skip_ok; exact I|]. eapply ko_call; [reflexivity|]. apply ko_seq1.
    eapply ko_call; [reflexivity|]. apply ko_seq1. apply ko_alt; apply ko_sat; exact I.
  - destruct (text_start ls F) as [S C]. destruct (line_ok l (airway_text ls) L S C) as [t [l' [O1 [R1 [_ P1]]]]].
    exists (t :: ts), (l' :: ls'). split; [constructor; assumption|]. split.
    + apply (ok_many_cons G NonAtomic _ (line_text l) (airway_text ls) [] [t] ts); [|exact O].
      rewrite app_nil_r. apply (ok_then G NonAtomic Skip _ [] (line_text l) (airway_text ls) [] [t]); [|exact O1].
      apply skip_ok. apply (line_start l L).
    + intros acc rest. cbn [app ofold flat_map]. rewrite P1.
      rewrite insert_all_app. destruct (insert_all acc (line_segments l')) as [acc'|]; [|reflexivity]. cbn [unwrap obind]. apply E.
Qed.
Lemma star_ok ls : Forall good_line ls -> exists ts ls', Forall2 line_read ls ls' /\
  ok G NonAtomic (Star (Call "airway")) (airway_text ls) [] ts /\
  forall acc rest, ofold airway_pair (ts ++ rest) acc = do acc <- unwrap (insert_all acc (flat_map line_segments ls')); ofold airway_pair rest acc.
Proof.
  intros F. destruct F as [|l ls L F].
  - exists [], []. split; [constructor|]. split; [|reflexivity]. apply ok_star_nil. eapply ko_call; [reflexivity|]. apply ko_seq1.
    eapply ko_call; [reflexivity|]. apply ko_seq1. apply ko_alt; apply ko_sat; exact I.
  - destruct (text_start ls F) as [S C]. destruct (line_ok l (airway_text ls) L S C) as [t [l' [O1 [R1 [_ P1]]]]].
    destruct (lines_ok ls F) as [ts [ls' [R [O E]]]]. exists (t :: ts), (l' :: ls'). split; [constructor; assumption|]. split.
    + apply ok_opt. apply (ok_then G NonAtomic _ _ (line_text l) (airway_text ls) [] [t] ts); [rewrite app_nil_r; exact O1 | exact O].
    + intros acc rest. cbn [app ofold flat_map]. rewrite P1, insert_all_app.
      destruct (insert_all acc (line_segments l')) as [acc'|]; [|reflexivity]. cbn [unwrap obind]. apply E.
Qed.
Lemma airway_text_read ls : ls <> [] -> Forall good_line ls -> exists ls', Forall2 line_read ls ls' /\
  parse_airway_txt (airway_text ls) = unwrap (insert_all empty_graph (flat_map line_segments ls')).
Proof.
  intros N F. pose proof (text_start ls F) as TS. destruct F as [|l ls L F]; [contradiction N; reflexivity|].
  destruct (text_start ls F) as [S C]. destruct (line_ok l (airway_text ls) L S C) as [t [l' [O1 [R1 [_ P1]]]]].
  destruct (star_ok ls F) as [ts [ls' [R [O E]]]]. exists (l' :: ls'). split; [constructor; assumption|].
  unfold parse_airway_txt. set (w := airway_text (l :: ls)) in *.
  assert (TP : top G "airways" w = Ret ((t :: ts) ++ [T "EOI" [] []])).
  { unfold top, pairs. rewrite (parse_matches G "airways" w w [] [] [T "airways" w ((t :: ts) ++ [T "EOI" [] []])]); [reflexivity | vm_compute; reflexivity|].
    apply (m_call G NonAtomic "airways" KNormal _ true w [] (Some (w, [], [], (t :: ts) ++ [T "EOI" [] []])) eq_refl).
    rewrite <- (app_nil_r w) at 1. apply ok_soi_seq.
    apply (ok_then G NonAtomic Skip _ [] w [] [] _); [apply skip_ok; rewrite app_nil_r; apply TS|].
    apply (ok_seq _ _ [] w [] [] _); [|rewrite app_nil_r; apply TS|].
    - apply ok_opt_no. eapply ko_call; [reflexivity|]. apply ko_seq1, ko_newline. rewrite app_nil_r. apply TS.
    - rewrite <- (app_nil_r w). apply (ok_seq _ _ w [] [] (t :: ts) [_]); [|exact I | apply ok_eoi; discriminate].
      apply (ok_seq _ _ (line_text l) (airway_text ls) [] [t] ts); [rewrite app_nil_r; exact O1 | rewrite app_nil_r; exact C | exact O]. }
  rewrite TP. cbn [obind app ofold flat_map]. rewrite P1, insert_all_app.
  destruct (insert_all empty_graph (line_segments l')) as [acc'|]; [|reflexivity]. cbn [unwrap obind]. rewrite E.
  destruct (insert_all acc' (flat_map line_segments ls')); reflexivity.
Qed.
Lemma nearest_q x y z : moderate x -> nearest6 x y -> millionths z x (4 / 10000000) -> q y = z.
Proof.
  intros [F L] [F' [z' [A B]]] C. unfold millionths in *. apply Rabs_le_inv in A. apply Rabs_le_inv in B. apply Rabs_le_inv in C.
  assert (z' = z) as ->.
  { assert (H : (Rabs (IZR z' - IZR z) < 1)%R) by (apply Rabs_lt; lra). rewrite <- minus_IZR, <- abs_IZR in H. apply (lt_IZR _ 1) in H. lia. }
  apply Rabs_lt_inv in L. apply q_unique; [exact F' | apply Rabs_le; lra | apply Rabs_le; lra].
Qed.
