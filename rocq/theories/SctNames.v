(** The name of a drawing: where the text of the name ends and the first line begins. *)
From Coq Require Import ZifyBool ZifyN ZifyNat.
From Verif Require Import Base Unicode Num Float FloatParse Dms SpecDms DmsProofs DmsWide Locations SctData SctWrite Peg Grammars SpecPeg PegProofs PegLang PegForward PegSkip Trees SpecText TextProofs Numerals SctParse SpecSctWrite SctForward.
Local Open Scope string_scope.
Local Open Scope list_scope.

(** ** A match or not *)
Definition total_expr (a : atom) (e : expr) : bool :=
  match chk G (nulr G (List.length G)) (chkr G (List.length G)) a e 0 with Some _ => true | None => false end.
Lemma total a e : total_expr a e = true -> forall b r k, exists o, matches G a e b r k o.
Proof.
  unfold total_expr. destruct (chk G _ _ a e 0) as [m|] eqn:C; [|discriminate]. intros _ b r k.
  pose proof (eval_ret G (nulr G (List.length G)) (chkr G (List.length G)) (run (List.length G) G) (run_splits G _) (run_nul G _) (run_ret G _) a e 0 m C b r k (Nat.le_0_l _)) as R.
  pose proof (eval_sound G (run (List.length G) G) (run_sound G _) a e b r k) as S.
  destruct (eval _ _ a e b r k); try contradiction; eexists; apply S; reflexivity.
Qed.
Lemma ko_by a e r : total_expr a e = true -> (forall c r' ts, r = c ++ r' -> yes G a e c r' ts -> False) -> ko G a e r.
Proof.
  intros T H b k. destruct (total a e T b r k) as [[[[[c r'] k'] ts]|] M]; [|exact M].
  pose proof (matches_says G eq_refl _ _ _ _ _ _ M) as [E Y]. destruct (H _ _ _ E Y).
Qed.

(** ** Words *)
Definition dense (c : N) : bool := negb (space c) && negb (is_nl c).
Inductive worded : list text -> text -> Prop :=
| worded_end b c r : spaced b -> is_nl c = true -> worded [] (b ++ c :: r)
| worded_cons b w t ws : spaced b -> word dense w -> stops dense t -> worded ws t -> worded (w :: ws) (b ++ w ++ t).
Lemma split_blank b x t b' x' t' : spaced b -> spaced b' -> space x = false -> space x' = false -> b ++ x :: t = b' ++ x' :: t' -> b = b' /\ x = x' /\ t = t'.
Proof.
  intros B. revert b'. induction B as [|c b C B IH]; intros b' B' X X' E; destruct B' as [|c' b' C' B'].
  - injection E as -> ->. auto.
  - injection E as E _. congruence.
  - injection E as E _. congruence.
  - injection E as -> E. destruct (IH _ B' X X' E) as [-> [-> ->]]. auto.
Qed.
Lemma split_word (f : N -> bool) w t w' t' : Forall (fun c => f c = true) w -> Forall (fun c => f c = true) w' -> stops f t -> stops f t' -> w ++ t = w' ++ t' -> w = w' /\ t = t'.
Proof.
  intros W. revert w'. induction W as [|c w C W IH]; intros w' W' S S' E; destruct W' as [|c' w' C' W'].
  - auto.
  - cbn [app] in E. subst t. cbn [stops] in S. congruence.
  - cbn [app] in E. subst t'. cbn [stops] in S'. congruence.
  - injection E as -> E. destruct (IH _ W' S S' E) as [-> ->]. auto.
Qed.
Lemma dense_not_space c : dense c = true -> space c = false.
Proof. unfold dense. destruct (space c); [discriminate | reflexivity]. Qed.
Lemma nl_not_space c : is_nl c = true -> space c = false.
Proof. unfold is_nl, space. lia. Qed.
Lemma nl_not_dense c : is_nl c = true -> dense c = false.
Proof. unfold dense. intros ->. apply andb_false_r. Qed.
Lemma worded_det ws t : worded ws t -> forall ws', worded ws' t -> ws = ws'.
Proof.
  induction 1 as [b c r B C|b w t ws B [WN W] S H IH]; intros ws' H'.
  - remember (b ++ c :: r) as u eqn:E. destruct H' as [b' c' r' B' C'|b' w' t' ws' B' [WN W'] S' H']; [reflexivity|]. exfalso.
    destruct W' as [|x w' X W']; [congruence|]. cbn [app] in E. destruct (split_blank b' x (w' ++ t') b c r B' B) as [_ [-> _]]; auto using dense_not_space, nl_not_space.
    rewrite nl_not_dense in X by exact C. discriminate.
  - remember (b ++ w ++ t) as u eqn:E. destruct H' as [b' c' r' B' C'|b' w' t' ws' B' [WN' W'] S' H'].
    + exfalso. destruct W as [|x w X W]; [congruence|]. cbn [app] in E. destruct (split_blank b' c' r' b x (w ++ t) B' B) as [_ [-> _]]; auto using dense_not_space, nl_not_space.
      rewrite nl_not_dense in X by exact C'. discriminate.
    + assert (E2 : w' ++ t' = w ++ t).
      { destruct W as [|x w X W]; [congruence|]. destruct W' as [|x' w' X' W']; [congruence|]. cbn [app] in E |- *.
        destruct (split_blank b' x' (w' ++ t') b x (w ++ t) B' B) as [_ [-> ->]]; auto using dense_not_space. }
      destruct (split_word dense w' t' w t W' W S' S E2) as [-> ->]. rewrite (IH _ H'). reflexivity.
Qed.
Lemma worded_space c ws t : space c = true -> worded ws t -> worded ws (c :: t).
Proof.
  intros C []; [apply (worded_end (c :: b) c0 r) | apply (worded_cons (c :: b) w t0 ws0)]; try assumption; constructor; assumption.
Qed.
Lemma worded_dense c ws t : dense c = true -> worded ws t ->
  match t with x :: _ => if dense x then match ws with w :: ws => worded ((c :: w) :: ws) (c :: t) | [] => False end else worded ([c] :: ws) (c :: t) | [] => False end.
Proof.
  intros C H. pose proof H as H0. destruct H as [b x r B X|b w t ws B [WN W] S H].
  - destruct B as [|y b Y B]; cbn [app].
    + rewrite (nl_not_dense x X). apply (worded_cons [] [c] (x :: r) []); [constructor | split; [discriminate | constructor; auto] | apply nl_not_dense, X | exact H0].
    + assert (D : dense y = false) by (unfold dense; rewrite Y; reflexivity). rewrite D.
      apply (worded_cons [] [c] (y :: b ++ x :: r) []); [constructor | split; [discriminate | constructor; auto] | exact D | exact H0].
  - destruct B as [|y b Y B]; cbn [app].
    + destruct W as [|x w X W]; [congruence|]. cbn [app]. rewrite X. apply (worded_cons [] (c :: x :: w) t ws); [constructor | split; [discriminate | constructor; auto] | exact S | exact H].
    + assert (D : dense y = false) by (unfold dense; rewrite Y; reflexivity). rewrite D.
      apply (worded_cons [] [c] (y :: b ++ w ++ t) (w :: ws)); [constructor | split; [discriminate | constructor; auto] | exact D | exact H0].
Qed.
(** a text that ends with a word *)
Lemma worded_text s : in_line s -> s <> [] -> (forall c r, s = r ++ [c] -> space c = false) ->
  exists ws, ws <> [] /\ forall t ws', stops dense t -> worded ws' t -> worded (ws ++ ws') (s ++ t).
Proof.
  induction s as [|c s IH]; intros L N E; [congruence|]. inversion L as [|? ? LC LS]; subst.
  destruct s as [|c' s].
  - assert (D : dense c = true).
    { unfold dense. rewrite (E c [] eq_refl). unfold is_nl. cbv beta in LC. clear - LC. lia. }
    exists [[c]]. split; [discriminate|]. intros t ws' S W. apply (worded_cons [] [c] t ws'); [constructor | split; [discriminate | constructor; auto] | exact S | exact W].
  - destruct (IH LS) as [ws [WN W]]; [discriminate | intros x r R; apply (E x (c :: r)); rewrite R; reflexivity|].
    destruct (space c) eqn:SC.
    + exists ws. split; [exact WN|]. intros t ws' S W'. cbn [app]. apply worded_space; [exact SC | apply (W t ws' S W')].
    + assert (D : dense c = true). { unfold dense. rewrite SC. unfold is_nl. cbv beta in LC. clear - LC. lia. }
      destruct (dense c') eqn:D'.
      * destruct ws as [|w ws]; [congruence|]. exists ((c :: w) :: ws). split; [discriminate|]. intros t ws' S W'.
        pose proof (worded_dense c _ _ D (W t ws' S W')) as H. cbn [app] in H |- *. rewrite D' in H. exact H.
      * exists ([c] :: ws). split; [discriminate|]. intros t ws' S W'.
        pose proof (worded_dense c _ _ D (W t ws' S W')) as H. cbn [app] in H |- *. rewrite D' in H. exact H.
Qed.

(** ** What has matched *)
Lemma dense_word f w : (forall c, f c = true -> dense c = true) -> word f w -> word dense w.
Proof. intros H [N F]. split; [exact N|]. eapply Forall_impl; [|exact F]. exact H. Qed.
Lemma designator_dense c : designator_char c = true -> dense c = true.
Proof. unfold designator_char, dense, space, is_nl, is_upper, is_digit. lia. Qed.
Definition colour_char (c : N) : bool := is_alnum c || existsb (N.eqb c) (s2t "-_").
Lemma colour_dense c : colour_char c = true -> dense c = true.
Proof. unfold colour_char, dense, space, is_nl, is_alnum, is_alpha, is_upper, is_lower, is_digit. cbn [existsb s2t]. change (N_of_ascii "-") with 45%N. change (N_of_ascii "_") with 95%N. lia. Qed.


Lemma ws_one' a : one' G a &"WHITESPACE" space.
Proof.
  assert (O : one' G Atomic (str " " // TAB // chr 65279) space).
  { eapply one'_ext; [apply one'_alt; [apply one'_chr | apply one'_alt; apply one'_chr]|]. intros c. unfold space. cbn. rewrite orb_assoc. reflexivity. }
  split.
  - intros c r ts N. destruct (node_inv G eq_refl _ _ _ _ _ N _ _ eq_refl) as [ts' [Y ->]]. apply O in Y. exact Y.
  - intros r N. pose proof (nonode_inv G eq_refl _ _ _ N _ _ eq_refl) as Y. apply O in Y. exact Y.
Qed.
Lemma ws_yes a c r ts : a <> NonAtomic -> yes G a (Plus &"WHITESPACE") c r ts -> spaces c /\ stops space r.
Proof. intros A Y. destruct (yes_plus_one G a _ _ c r ts A (ws_one' a) Y) as [N [F [S _]]]. split; [split; [exact N | exact F] | exact S]. Qed.

Definition part_text (c : text) : Prop := word dense c /\ exists h d r, In h (s2t "NSWEnswe") /\ SpecText.digits d /\ c = h :: d ++ s2t "." ++ r.
Lemma digits_dense d : Forall (fun c => is_digit c = true) d -> Forall (fun c => dense c = true) d.
Proof. apply Forall_impl. intros c. unfold dense, space, is_nl, is_digit. lia. Qed.
Lemma digits_node n a c r ts : get n G = Some (KAtomic, Plus ASCII_DIGIT) -> node G n a c r ts -> SpecText.digits c.
Proof.
  intros E N. destruct (node_inv G eq_refl _ _ _ _ _ N _ _ E) as [ts' [Y _]].
  destruct (yes_plus_one G Atomic _ _ _ _ _ ltac:(discriminate) (one'_sat G Atomic is_digit) Y) as [W [F _]]. split; assumption.
Qed.
Lemma part_yes a c r ts : node G "sct_coord_part" a c r ts -> part_text c.
Proof.
  intros N. destruct (node_inv G eq_refl _ _ _ _ _ N _ _ eq_refl) as [ts' [Y _]]. clear N.
  change (body_atom "sct_coord_part" KCompound a) with Compound in Y.
  apply yes_seq_at in Y; [|discriminate]. destruct Y as [h [c1 [? [? [-> [_ [H Y]]]]]]].
  apply yes_seq_at in Y; [|discriminate]. destruct Y as [d [c2 [? [? [-> [_ [D Y]]]]]]].
  apply yes_seq_at in Y; [|discriminate]. destruct Y as [p [c3 [? [? [-> [_ [[-> _] Y]]]]]]].
  apply yes_seq_at in Y; [|discriminate]. destruct Y as [m [c4 [? [? [-> [_ [M Y]]]]]]].
  apply yes_seq_at in Y; [|discriminate]. destruct Y as [p [s [? [? [-> [_ [[-> _] Z]]]]]]].
  assert (HH : exists x, h = [x] /\ In x (s2t "NSWEnswe")).
  { destruct (node_inv G eq_refl _ _ _ _ _ H _ _ eq_refl) as [ts'' [Y _]].
    destruct Y as [[-> _]|[_ [[-> _]|[_ [[-> _]|[_ [[-> _]|[_ [[-> _]|[_ [[-> _]|[_ [[-> _]|[_ [-> _]]]]]]]]]]]]]]];
      eexists; (split; [reflexivity|]); cbn; tauto. }
  destruct HH as [h0 [-> X]]. apply digits_node in D; [|reflexivity]. apply digits_node in M; [|reflexivity].
  assert (S : numeral s).
  { destruct (node_inv G eq_refl _ _ _ _ _ Z _ _ eq_refl) as [ts'' [Y _]]. cbn [yes] in Y.
    destruct (node_inv G eq_refl _ _ _ _ _ Y _ _ eq_refl) as [ts3 [Y3 _]]. exact (proj1 (numeral_yes G _ _ _ Y3)). }
  split; [|exists h0, d, (m ++ s2t "." ++ s); repeat split; try assumption; apply D].
  split; [discriminate|]. cbn [app]. constructor; [cbn in X; repeat destruct X as [<-|X]; try reflexivity; contradiction|].
  apply Forall_app. split; [apply digits_dense, D|]. apply Forall_app. split; [repeat constructor|]. apply Forall_app. split; [apply digits_dense, M|].
  apply Forall_app. split; [repeat constructor|]. destruct S as [sg [u [-> [SG U]]]]. apply Forall_app. split.
  - destruct SG as [-> |[-> | ->]]; repeat constructor.
  - destruct U as [e [_ U]|e f U [_ U']]; [apply digits_dense, U|]. apply Forall_app. split; [apply digits_dense, U|].
    apply Forall_app. split; [repeat constructor | apply digits_dense, U'].
Qed.
Lemma coord_yes a c r ts : node G "sct_coordinate" a c r ts -> exists p b q, part_text p /\ spaces b /\ part_text q /\ c = p ++ b ++ q.
Proof.
  intros N. destruct (node_inv G eq_refl _ _ _ _ _ N _ _ eq_refl) as [ts' [Y _]]. clear N.
  change (body_atom "sct_coordinate" KCompound a) with Compound in Y.
  apply yes_seq_at in Y; [|discriminate]. destruct Y as [p [c1 [? [? [-> [_ [H Y]]]]]]].
  apply yes_seq_at in Y; [|discriminate]. destruct Y as [b [q [? [? [-> [_ [B Q]]]]]]].
  apply ws_yes in B; [|discriminate]. exists p, b, q. repeat split; eauto using part_yes; try apply B; try apply (part_yes _ _ _ _ H); apply (part_yes _ _ _ _ Q).
Qed.
Lemma designator_yes a c r ts : node G "designator" a c r ts -> designator c /\ stops designator_char r.
Proof.
  intros N. destruct (node_inv G eq_refl _ _ _ _ _ N _ _ eq_refl) as [ts' [Y _]].
  assert (O : one' G Atomic (ASCII_ALPHA_UPPER // ASCII_DIGIT) designator_char) by (apply one'_alt; apply one'_sat).
  destruct (yes_plus_one G Atomic _ _ _ _ _ ltac:(discriminate) O Y) as [W [F [S _]]]. split; [split; assumption | exact S].
Qed.
Lemma colour_yes a c r ts : node G "colour_name" a c r ts -> word colour_char c /\ stops colour_char r.
Proof.
  intros N. destruct (node_inv G eq_refl _ _ _ _ _ N _ _ eq_refl) as [ts' [Y _]].
  assert (O : one' G Atomic (ASCII_ALPHANUMERIC // str "-" // str "_") colour_char).
  { eapply one'_ext; [apply one'_alt; [apply one'_sat | apply one'_alt; apply one'_chr]|]. intros c0. unfold colour_char. cbn [existsb s2t]. rewrite orb_false_r. reflexivity. }
  destruct (yes_plus_one G Atomic _ _ _ _ _ ltac:(discriminate) O Y) as [W [F [S _]]]. split; [split; assumption | exact S].
Qed.
(** a fix: the word taken off the stack is the one put there *)
Lemma then_inv a x y b r k c r' k' ts : matches G a (Then x y) b r k (Some (c, r', k', ts)) ->
  exists c1 c2 r1 k1 t1 t2 b', c = c1 ++ c2 /\ matches G a x b r k (Some (c1, r1, k1, t1)) /\ matches G a y b' r1 k1 (Some (c2, r', k', t2)).
Proof. intros M. inversion M; subst. do 7 eexists. split; [reflexivity|]. split; eassumption. Qed.
Lemma skip_inv a b r k c r' k' ts : a <> NonAtomic -> matches G a Skip b r k (Some (c, r', k', ts)) -> c = [] /\ r' = r /\ k' = k.
Proof. intros A M. inversion M; subst; [congruence | auto]. Qed.
Lemma push_inv a e b r k c r' k' ts : matches G a (Push e) b r k (Some (c, r', k', ts)) -> exists k0, k' = c :: k0 /\ matches G a e b r k (Some (c, r', k0, ts)).
Proof. intros M. inversion M; subst. eauto. Qed.
Lemma pop_inv a b r s k c r' k' ts : matches G a Pop b r (s :: k) (Some (c, r', k', ts)) -> c = s.
Proof. intros M. inversion M; subst. reflexivity. Qed.
Lemma fix_yes a c r ts : node G "airway_fix" a c r ts -> exists d b, designator d /\ spaces b /\ c = d ++ b ++ d.
Proof.
  intros [s [k [k' M]]]. apply call_inv in M. destruct M as [kd [e [o [E [M R]]]]]. cbn in E. injection E as <- <-.
  change (body_atom "airway_fix" KCompound a) with Compound in M.
  destruct o as [[[[c' r'] k''] ts']|]; [|discriminate R]. cbn in R. injection R as <- <- <- ->.
  assert (ST : forall n r k c r' k' ts b, get n G = Some (KAtomic, Plus (ASCII_ALPHA_UPPER // ASCII_DIGIT)) -> matches G Compound (Call n) b r k (Some (c, r', k', ts)) -> k' = k).
  { clear. intros n r k c r' k' ts b E M. pose proof (matches_says G eq_refl _ _ _ _ _ _ M) as [EQ N]. cbn [yes] in N. subst r.
    destruct (node_inv G eq_refl _ _ _ _ _ N _ _ E) as [ts' [Y _]].
    assert (O : one' G Atomic (ASCII_ALPHA_UPPER // ASCII_DIGIT) designator_char) by (apply one'_alt; apply one'_sat).
    destruct (yes_plus_one G Atomic _ _ _ _ _ ltac:(discriminate) O Y) as [W [F [S _]]].
    pose proof (tok_plus Compound n _ designator_char c r' ltac:(discriminate) E designator_one (conj W F) S) as [c0 [E0 O0]].
    apply app_inv_tail in E0. subst c0. pose proof (matches_det _ _ _ _ _ _ _ M _ (O0 b k)) as X. congruence. }
  apply then_inv in M. destruct M as [c1 [c2 [r1 [k1 [t1 [t2 [b' [-> [M1 M]]]]]]]]].
  apply then_inv in M. destruct M as [c3 [c4 [r3 [k3 [t3 [t4 [b3 [-> [M3 M]]]]]]]]]. apply skip_inv in M3; [|discriminate]. destruct M3 as [-> [-> ->]].
  apply then_inv in M. destruct M as [c5 [c6 [r5 [k5 [t5 [t6 [b5 [-> [M5 M]]]]]]]]].
  apply then_inv in M. destruct M as [c7 [c8 [r7 [k7 [t7 [t8 [b7 [-> [M7 M]]]]]]]]]. apply skip_inv in M7; [|discriminate]. destruct M7 as [-> [-> ->]].
  apply push_inv in M1. destruct M1 as [k0 [-> MD]].
  pose proof (ST "designator" _ _ _ _ _ _ _ eq_refl MD) as ->.
  pose proof (matches_says G eq_refl _ _ _ _ _ _ MD) as [_ ND]. cbn [yes] in ND. apply designator_yes in ND. destruct ND as [D _].
  pose proof (matches_says G eq_refl _ _ _ _ _ _ M5) as [-> Y5]. apply ws_yes in Y5; [|discriminate]. destruct Y5 as [B SB].
  destruct (okt_ws Compound c5 r5 ltac:(discriminate) B SB) as [c0 [E0 O0]]. apply app_inv_tail in E0. subst c0.
  pose proof (matches_det _ _ _ _ _ _ _ M5 _ (O0 b3 (c1 :: k))) as X. injection X as -> _.
  apply pop_inv in M. subst c8. exists c1, c5. auto.
Qed.

(** ** Where a name ends *)
Definition ahead (n : string) : expr :=
  ((Plus &"WHITESPACE" ~~ Call n) ~~ (Plus &"WHITESPACE" ~~ Call n)) ~~ Opt (Plus &"WHITESPACE" ~~ &"colour_name") ~~ &"NL".
Definition ending : expr := ahead "sct_coordinate" // ahead "airway_fix" // str "[" // str "]".
Lemma name_rule : get "non_coordinate_or_double_fix_name" G = Some (KCompound, Plus (until ending)).
Proof. reflexivity. Qed.

Lemma sptab_one' a : one' G a SPTAB is_blank.
Proof. eapply one'_ext; [apply one'_alt; apply one'_chr|]. reflexivity. Qed.
Lemma nl_yes c r ts : yes G Compound &"NL" c r ts -> exists b x t, spaced b /\ is_nl x = true /\ c = b ++ x :: t.
Proof.
  intros N. destruct (node_inv G eq_refl _ _ _ _ _ N _ _ eq_refl) as [ts' [Y _]]. change (body_atom "NL" KSilent Compound) with Compound in Y.
  apply yes_seq_at in Y; [|discriminate]. destruct Y as [c1 [c2 [? [? [-> [_ [Y _]]]]]]].
  apply yes_seq_at in Y; [|discriminate]. destruct Y as [b [n [? [? [-> [_ [B Y]]]]]]].
  apply (yes_star_one G Compound _ is_blank) in B; [|discriminate | apply sptab_one']. destruct B as [B _].
  apply yes_newline in Y. destruct Y as [Y _]. destruct Y; exists b; eexists; eexists; (split; [apply blank_spaced, B|]); (split; [|rewrite <- app_assoc; reflexivity]); reflexivity.
Qed.
Lemma spaces_stops_dense b t : spaces b -> stops dense (b ++ t).
Proof. intros [N F]. destruct F as [|c b C F]; [congruence|]. cbn [app stops]. unfold dense. rewrite C. reflexivity. Qed.
Lemma worded_two b w1 b' w2 t ws : spaced b -> word dense w1 -> spaces b' -> word dense w2 -> stops dense t -> worded ws t -> worded (w1 :: w2 :: ws) (b ++ (w1 ++ b' ++ w2) ++ t).
Proof.
  intros B W1 B' W2 S H. replace (b ++ (w1 ++ b' ++ w2) ++ t) with (b ++ w1 ++ b' ++ w2 ++ t) by (rewrite <- !app_assoc; reflexivity).
  apply worded_cons; [exact B | exact W1 | apply spaces_stops_dense, B'|]. apply worded_cons; [apply B' | exact W2 | exact S | exact H].
Qed.
Lemma ahead_yes n (Q : text -> text -> Prop) c r ts :
  (forall a c r ts, node G n a c r ts -> exists w1 b w2, Q w1 w2 /\ word dense w1 /\ spaces b /\ word dense w2 /\ c = w1 ++ b ++ w2) ->
  yes G Compound (ahead n) c r ts ->
  exists w1 w2 w3 w4 col, worded ([w1; w2; w3; w4] ++ col) (c ++ r) /\ Q w1 w2 /\ Q w3 w4 /\ (col = [] \/ exists x, col = [x] /\ word colour_char x).
Proof.
  intros H Y. apply yes_seq_at in Y; [|discriminate]. destruct Y as [c1 [c2 [? [? [-> [_ [Y1 Y]]]]]]].
  apply yes_seq_at in Y; [|discriminate]. destruct Y as [co [nl [? [? [-> [_ [YC YN]]]]]]].
  apply nl_yes in YN. destruct YN as [b5 [x5 [t5 [B5 [X5 ->]]]]].
  assert (E5 : worded [] ((b5 ++ x5 :: t5) ++ r)) by (rewrite <- app_assoc; apply (worded_end b5 x5 (t5 ++ r)); assumption).
  assert (S5 : stops dense ((b5 ++ x5 :: t5) ++ r)).
  { destruct B5 as [|z b5 Z B5]; cbn [app stops]; [apply nl_not_dense, X5 | unfold dense; rewrite Z; reflexivity]. }
  assert (C : exists col, worded col ((co ++ b5 ++ x5 :: t5) ++ r) /\ stops dense ((co ++ b5 ++ x5 :: t5) ++ r) /\ (col = [] \/ exists x, col = [x] /\ word colour_char x)).
  { destruct YC as [YC|[-> _]]; [|exists []; auto].
    apply yes_seq_at in YC; [|discriminate]. destruct YC as [b4 [w5 [? [? [-> [_ [YB YC]]]]]]].
    apply ws_yes in YB; [|discriminate]. destruct YB as [B4 _]. apply colour_yes in YC. destruct YC as [W5 _].
    exists [w5]. split; [|split; [|right; eauto]].
    - replace (((b4 ++ w5) ++ b5 ++ x5 :: t5) ++ r) with (b4 ++ w5 ++ (b5 ++ x5 :: t5) ++ r) by (rewrite <- !app_assoc; reflexivity).
      apply worded_cons; [apply B4 | eapply dense_word; [apply colour_dense | exact W5] | exact S5 | exact E5].
    - rewrite <- !app_assoc. apply spaces_stops_dense, B4. }
  destruct C as [col [C [CS CC]]].
  apply yes_seq_at in Y1; [|discriminate]. destruct Y1 as [p1 [p2 [? [? [-> [_ [Y1 Y2]]]]]]].
  apply yes_seq_at in Y1; [|discriminate]. destruct Y1 as [b1 [l1 [? [? [-> [_ [YB1 N1]]]]]]]. apply ws_yes in YB1; [|discriminate]. destruct YB1 as [B1 _].
  apply yes_seq_at in Y2; [|discriminate]. destruct Y2 as [b2 [l2 [? [? [-> [_ [YB2 N2]]]]]]]. apply ws_yes in YB2; [|discriminate]. destruct YB2 as [B2 _].
  destruct (H _ _ _ _ N1) as [w1 [d1 [w2 [Q1 [W1 [D1 [W2 ->]]]]]]]. destruct (H _ _ _ _ N2) as [w3 [d2 [w4 [Q2 [W3 [D2 [W4 ->]]]]]]].
  exists w1, w2, w3, w4, col. split; [|auto].
  replace ((((b1 ++ w1 ++ d1 ++ w2) ++ b2 ++ w3 ++ d2 ++ w4) ++ co ++ b5 ++ x5 :: t5) ++ r)
    with (b1 ++ (w1 ++ d1 ++ w2) ++ b2 ++ (w3 ++ d2 ++ w4) ++ (co ++ b5 ++ x5 :: t5) ++ r) by (rewrite <- !app_assoc; reflexivity).
  apply worded_two; try assumption; [apply B1 | apply spaces_stops_dense, B2|]. apply worded_two; try assumption. apply B2.
Qed.
Lemma coord_words a c r ts : node G "sct_coordinate" a c r ts -> exists w1 b w2, (part_text w1 /\ part_text w2) /\ word dense w1 /\ spaces b /\ word dense w2 /\ c = w1 ++ b ++ w2.
Proof. intros N. destruct (coord_yes _ _ _ _ N) as [p [b [q [P [B [Q ->]]]]]]. exists p, b, q. split; [auto|]. split; [apply P|]. split; [exact B|]. split; [apply Q | reflexivity]. Qed.
Lemma fix_words a c r ts : node G "airway_fix" a c r ts -> exists w1 b w2, (designator w1 /\ w2 = w1) /\ word dense w1 /\ spaces b /\ word dense w2 /\ c = w1 ++ b ++ w2.
Proof.
  intros N. destruct (fix_yes _ _ _ _ N) as [d [b [D [B ->]]]]. exists d, b, d. pose proof (dense_word _ _ designator_dense D). auto.
Qed.
Lemma part_not_designator w : part_text w -> designator w -> False.
Proof.
  intros [_ [h [d [r [_ [_ ->]]]]]] [_ F]. inversion F as [|? ? _ F']; subst. apply Forall_app in F'. destruct F' as [_ F']. inversion F'; subst. discriminate.
Qed.
Lemma part_not_colour w : part_text w -> word colour_char w -> False.
Proof.
  intros [_ [h [d [r [_ [_ ->]]]]]] [_ F]. inversion F as [|? ? _ F']; subst. apply Forall_app in F'. destruct F' as [_ F']. inversion F'; subst. discriminate.
Qed.

(** the words of a first line: two fixes of different name, or two coordinates *)
Definition first_words (fw : list text) : Prop :=
  (exists a b, designator a /\ designator b /\ a <> b /\ fw = [a; a; b; b]) \/
  (exists a b c d, part_text a /\ part_text b /\ part_text c /\ part_text d /\ fw = [a; b; c; d]).
Lemma ahead_ko n ws fw col t : (n = "sct_coordinate" \/ n = "airway_fix") -> ws <> [] -> first_words fw -> col = [] \/ (exists x, col = [x]) -> worded (ws ++ fw ++ col) t -> ko G Compound (ahead n) t.
Proof.
  intros HN WN FW CL W. apply ko_by; [destruct HN as [-> | ->]; reflexivity|]. intros c r ts -> Y.
  assert (LEN : List.length fw = 4%nat) by (destruct FW as [[? [? [_ [_ [_ ->]]]]]|[? [? [? [? [_ [_ [_ [_ ->]]]]]]]]]; reflexivity).
  assert (K : forall w1 w2 w3 w4 col', worded ([w1; w2; w3; w4] ++ col') (c ++ r) -> (col' = [] \/ exists x, col' = [x] /\ word colour_char x) ->
    exists s x, fw = [w2; w3; w4; x] /\ w1 = s /\ word colour_char x).
  { intros w1 w2 w3 w4 col' W' C'. pose proof (worded_det _ _ W _ W') as E.
    destruct ws as [|s ws]; [congruence|]. destruct fw as [|f1 [|f2 [|f3 [|f4 [|]]]]]; try discriminate LEN. cbn [app] in E. injection E as E1 E.
    destruct ws as [|s2 ws]; cbn [app] in E.
    - destruct C' as [-> |[x [-> X]]]; [injection E as _ _ _ E; discriminate|]. injection E as -> -> -> -> _. exists s, x. auto.
    - exfalso. apply (f_equal (@List.length _)) in E. cbn [List.length] in E. rewrite app_length in E. cbn [List.length] in E.
      destruct C' as [-> |[x [-> X]]]; cbn [List.length] in E; lia. }
  destruct HN as [-> | ->].
  - destruct (ahead_yes _ (fun x y => part_text x /\ part_text y) _ _ _ coord_words Y) as [w1 [w2 [w3 [w4 [col' [W' [[P1 P2] [[P3 P4] C']]]]]]]].
    destruct (K _ _ _ _ _ W' C') as [s [x [E [_ X]]]]. destruct FW as [[a [b [A [B [NE F]]]]]|[a [b [c0 [d [A [B [C [D F]]]]]]]]]; rewrite E in F; injection F as -> -> -> ->.
    + eapply part_not_designator; [exact P2 | exact A].
    + eapply part_not_colour; [exact D | exact X].
  - destruct (ahead_yes _ (fun x y => designator x /\ y = x) _ _ _ fix_words Y) as [w1 [w2 [w3 [w4 [col' [W' [[P1 ->] [[P3 ->] C']]]]]]]].
    destruct (K _ _ _ _ _ W' C') as [s [x [E [_ X]]]]. destruct FW as [[a [b [A [B [NE F]]]]]|[a [b [c0 [d [A [B [C [D F]]]]]]]]]; rewrite E in F; injection F as -> F2 F3 F4.
    + congruence.
    + eapply part_not_colour; [exact D | rewrite <- F4; exact X].
Qed.

Lemma until_ok a x c t : a <> NonAtomic -> ko G a x (c :: t) -> okt a (until x) (c :: t) t [].
Proof.
  intros A K. apply (okt_seq_at a _ _ (c :: t) (c :: t) t [] [] A); [apply okt_not, K | apply (okt_ok a ANY [c] t []), ok_sat; reflexivity].
Qed.
Lemma until_ko a x t r ts : okt a x t r ts -> ko G a (until x) t.
Proof. intros O. apply ko_seq1. eapply ko_nott, O. Qed.
Lemma untils a x s t : a <> NonAtomic -> (forall s1 c s2, s = s1 ++ c :: s2 -> ko G a x (c :: s2 ++ t)) -> ko G a (until x) t -> okt a (Many (Then Skip (until x))) (s ++ t) t [].
Proof.
  intros A. induction s as [|c s IH]; intros H K.
  - apply okt_many_nil. apply (ko_then2 G a Skip _ [] t []); [apply ok_skip_atomic, A | exact K].
  - apply (okt_many_cons a _ (c :: s ++ t) (s ++ t) t [] []).
    + apply (okt_then a Skip _ (c :: s ++ t) (c :: s ++ t) (s ++ t) [] []); [exists []; split; [reflexivity | apply ok_skip_atomic, A]|].
      apply until_ok; [exact A|]. apply (H [] c s eq_refl).
    + apply IH; [|exact K]. intros s1 c' s2 ->. apply (H (c :: s1) c' s2 eq_refl).
Qed.
Lemma plus_until a x s t : a <> NonAtomic -> s <> [] -> (forall s1 c s2, s = s1 ++ c :: s2 -> ko G a x (c :: s2 ++ t)) -> ko G a (until x) t -> okt a (Plus (until x)) (s ++ t) t [].
Proof.
  intros A N H K. destruct s as [|c s]; [congruence|]. clear N.
  apply (okt_seq_at a _ _ (c :: s ++ t) (s ++ t) t [] [] A); [apply until_ok; [exact A | apply (H [] c s eq_refl)]|].
  assert (H' : forall s1 c' s2, s = s1 ++ c' :: s2 -> ko G a x (c' :: s2 ++ t)) by (intros s1 c' s2 ->; apply (H (c :: s1) c' s2 eq_refl)).
  destruct s as [|c' s]; [apply okt_opt_no, ko_then1, K|]. apply okt_opt.
  apply (okt_then a _ _ (c' :: s ++ t) (s ++ t) t [] []); [apply until_ok; [exact A | apply (H' [] c' s eq_refl)]|].
  apply untils; [exact A | | exact K]. intros s1 c2 s2 ->. apply (H' (c' :: s1) c2 s2 eq_refl).
Qed.

Lemma ahead_ko_here n t : stops space t -> ko G Compound (ahead n) t.
Proof.
  intros S. apply ko_seq1, ko_seq1, ko_seq1. eapply ko_plus_one; [apply ws_one | exact S].
Qed.
Lemma bracket_ko t : stops (fun c => existsb (N.eqb c) (s2t "[]")) t -> ko G Compound (str "[" // str "]") t.
Proof.
  intros S. apply ko_alt; [apply (ko_chr Compound 91) | apply (ko_chr Compound 93)]; destruct t; try exact I; cbn [stops existsb s2t] in *;
    change (N_of_ascii "[") with 91%N in S; change (N_of_ascii "]") with 93%N in S; lia.
Qed.
(** inside the name *)
Lemma name_inside name t fw col : free_of (s2t "[]") name -> (forall c r, name = r ++ [c] -> space c = false) -> first_words fw -> col = [] \/ (exists x, col = [x]) ->
  stops dense t -> worded (fw ++ col) t -> forall s1 c s2, name = s1 ++ c :: s2 -> ko G Compound ending (c :: s2 ++ t).
Proof.
  intros [L F] E FW CL S W s1 c s2 ->.
  apply Forall_app in L, F. destruct L as [_ L], F as [_ F].
  assert (K : forall n, n = "sct_coordinate" \/ n = "airway_fix" -> ko G Compound (ahead n) (c :: s2 ++ t)).
  { intros n HN. destruct (worded_text (c :: s2) L) as [ws [WN H]]; [discriminate | intros x r R; apply (E x (s1 ++ r)); rewrite R, app_assoc; reflexivity|].
    eapply (ahead_ko n ws fw col); [exact HN | exact WN | exact FW | exact CL|]. apply (H t (fw ++ col) S W). }
  apply ko_alt; [apply K; auto|]. apply ko_alt; [apply K; auto|]. apply bracket_ko. cbn [stops]. inversion F; subst.
  destruct (existsb (N.eqb c) (s2t "[]")) eqn:X; [|reflexivity]. exfalso. apply existsb_exists in X. destruct X as [y [Y1 Y2]]. apply N.eqb_eq in Y2. subst y. auto.
Qed.

(** at its end *)
Lemma span_blank u : exists b t, u = b ++ t /\ blanks b /\ stops is_blank t.
Proof.
  induction u as [|c u [b [t [-> [B S]]]]]; [exists [], []; repeat split; constructor|].
  destruct (is_blank c) eqn:C; [exists (c :: b), t; repeat split; auto; constructor; auto | exists [], (c :: b ++ t); repeat split; auto; constructor].
Qed.
Lemma sptab_one a : one G a SPTAB is_blank.
Proof. eapply one_ext; [apply one_alt; apply one_chr|]. reflexivity. Qed.
Lemma newline_dec a t : (exists n r, n <> [] /\ t = n ++ r /\ ok G a NEWLINE n r []) \/ ko G a NEWLINE t.
Proof.
  destruct t as [|c t]; [right; apply ko_newline; exact I|]. destruct (is_nl c) eqn:C; [left | right; apply ko_newline; exact C].
  destruct (c =? 10)%N eqn:C1.
  - apply N.eqb_eq in C1. subst c. exists [10]%N, t. split; [discriminate|]. split; [reflexivity | apply ok_newline_lf].
  - unfold is_nl in C. rewrite C1 in C. cbn [orb] in C. apply N.eqb_eq in C. subst c.
    destruct t as [|d t]; [|destruct (d =? 10)%N eqn:D].
    + exists [13]%N, []. split; [discriminate|]. split; [reflexivity|]. apply ok_alt2; [apply ko_str; intros r; discriminate|]. apply ok_alt2; [apply ko_str; intros r; discriminate|]. apply ok_str.
    + apply N.eqb_eq in D. subst d. exists [13; 10]%N, t. split; [discriminate|]. split; [reflexivity|]. apply ok_alt2; [apply ko_str; intros r; discriminate|]. apply ok_alt1, ok_str.
    + exists [13]%N, (d :: t). split; [discriminate|]. split; [reflexivity|]. apply ok_alt2; [apply ko_str; intros r; discriminate|].
      apply ok_alt2; [apply ko_str; intros r X; injection X as -> _; discriminate|]. apply ok_str.
Qed.
Lemma eol_dec a u : a <> NonAtomic -> (exists c r, c <> [] /\ u = c ++ r /\ ok G a (Star SPTAB ~~ NEWLINE) c r []) \/ ko G a (Star SPTAB ~~ NEWLINE) u.
Proof.
  intros A. destruct (span_blank u) as [b [t [-> [B S]]]].
  assert (O : ok G a (Star SPTAB) b t []) by (eapply ok_star_one; [exact A | apply sptab_one | exact B | exact S]).
  destruct (newline_dec a t) as [[n [r [N [-> H]]]]|K].
  - left. exists (b ++ n), r. split; [destruct b; [exact N | discriminate]|]. split; [apply app_assoc|]. apply (ok_seq_at G a _ _ b n r [] []); assumption.
  - right. eapply ko_seq2_at; eassumption.
Qed.
Lemma eols_ok a : a <> NonAtomic -> forall u, exists r, okt a (Many (Then Skip (Star SPTAB ~~ NEWLINE))) u r [].
Proof.
  intros A u. remember (List.length u) as n eqn:L. revert u L. induction n as [n IH] using (well_founded_induction lt_wf). intros u ->.
  destruct (eol_dec a u A) as [[c [r [N [-> O]]]]|K].
  - destruct (IH (List.length r)) with (u := r) as [r' O']; [rewrite app_length; destruct c; [congruence | cbn; lia] | reflexivity|].
    exists r'. apply (okt_many_cons a _ (c ++ r) r r' [] []); [|exact O'].
    apply (okt_then a Skip _ (c ++ r) (c ++ r) r [] []); [exists []; split; [reflexivity | apply ok_skip_atomic, A] | apply okt_ok, O].
  - exists u. apply okt_many_nil. apply (ko_then2 G a Skip _ [] u []); [apply ok_skip_atomic, A | exact K].
Qed.
Lemma nl_at a u : a <> NonAtomic -> exists r, okt a &"NL" (10%N :: u) r [].
Proof.
  intros A.
  assert (O : ok G a (Star SPTAB ~~ NEWLINE) [10]%N u []).
  { apply (ok_seq_at G a _ _ [] [10]%N u [] [] A); [apply ok_star_nil, ko_sptab; reflexivity | apply ok_newline_lf]. }
  assert (S : exists r, okt a (Star (Star SPTAB ~~ NEWLINE)) u r []).
  { destruct (eol_dec a u A) as [[c [r [N [-> O1]]]]|K].
    - destruct (eols_ok a A r) as [r' O']. exists r'. apply okt_opt. apply (okt_then a _ _ (c ++ r) r r' [] []); [apply okt_ok, O1 | exact O'].
    - exists u. apply okt_opt_no, ko_then1, K. }
  destruct S as [r S]. exists r. apply okt_silent with (e := Plus (Star SPTAB ~~ NEWLINE)); [reflexivity | reflexivity|].
  apply (okt_seq_at a _ _ (10%N :: u) u r [] [] A); [apply (okt_ok _ _ [10]%N), O | exact S].
Qed.
Lemma nl_compound u : exists r, okt Compound &"NL" (10%N :: u) r [].
Proof. apply nl_at. discriminate. Qed.
Definition coloured (co : text) : Prop := co = [] \/ exists w, co = s2t " " ++ w /\ word colour_char w.
Lemma ahead_ok n b1 l1 l2 co u t1 t2 : spaces b1 -> coloured co -> (forall r, stops space (l1 ++ r)) -> (forall r, stops space (l2 ++ r)) ->
  okt Compound (Call n) (l1 ++ s2t " " ++ l2 ++ co ++ 10%N :: u) (s2t " " ++ l2 ++ co ++ 10%N :: u) t1 ->
  okt Compound (Call n) (l2 ++ co ++ 10%N :: u) (co ++ 10%N :: u) t2 ->
  exists r ts, okt Compound (ahead n) (b1 ++ l1 ++ s2t " " ++ l2 ++ co ++ 10%N :: u) r ts.
Proof.
  intros B C S1 S2 O1 O2. assert (A : Compound <> NonAtomic) by discriminate. destruct (nl_compound u) as [r NL].
  assert (SP : spaces (s2t " ")) by (split; [discriminate | repeat constructor]).
  assert (OC : exists t3, okt Compound (Opt (Plus &"WHITESPACE" ~~ &"colour_name")) (co ++ 10%N :: u) (10%N :: u) t3).
  { destruct C as [-> |[w [-> W]]].
    - exists []. apply okt_opt_no, ko_seq1. eapply ko_plus_one; [apply ws_one | reflexivity].
    - eexists. apply okt_opt. rewrite <- app_assoc. eapply okt_seq_at; [exact A | apply okt_ws; [exact A | exact SP|]|].
      + eapply word_stops; [exact W|]. intros c H. apply dense_not_space, colour_dense, H.
      + eapply tok_plus; [discriminate | reflexivity | apply colour_one | exact W | reflexivity]. }
  destruct OC as [t3 OC]. exists r. eexists.
  eapply okt_seq_at; [exact A | eapply okt_seq_at; [exact A | eapply okt_seq_at; [exact A | apply okt_ws; [exact A | exact B | apply S1] | exact O1] | eapply okt_seq_at; [exact A | apply okt_ws; [exact A | exact SP | apply S2] | exact O2]]|].
  eapply okt_seq_at; [exact A | exact OC | exact NL].
Qed.

(** ** The texts of places *)
Lemma coord_text_part t : is_coord_text t -> part_text t.
Proof.
  intros [h [deg [min [ms [L ->]]]]]. unfold coordinate_text.
  assert (LH : exists x, s2t h = [x] /\ In x (s2t "NSWEnswe")) by (destruct L as [[-> | ->]|[-> | ->]]; eexists; (split; [reflexivity|]); cbn; tauto).
  destruct LH as [x [-> X]]. split.
  - split; [discriminate|]. cbn [app]. constructor; [cbn in X; repeat destruct X as [<-|X]; try reflexivity; contradiction|].
    assert (D : forall w n, Forall (fun c => dense c = true) (SpecDms.digits w n)) by (intros; apply digits_dense, digits_word).
    assert (P : Forall (fun c => dense c = true) (s2t ".")) by (repeat constructor).
    unfold seconds_text. rewrite !Forall_app. auto 10.
  - exists x, (SpecDms.digits 3 deg). eexists. split; [exact X|]. split; [apply digits_word|]. reflexivity.
Qed.
Lemma part_stops p r : part_text p -> stops space (p ++ r).
Proof. intros [W _]. eapply word_stops; [exact W | apply dense_not_space]. Qed.
Lemma spelt_stops l t q : spelt l t q -> forall r, stops space (t ++ r).
Proof.
  intros S r. pose proof (sp_words _ _ _ S) as W. destruct l.
  - destruct W as [w1 [w2 [W1 [_ ->]]]]. rewrite <- app_assoc. apply part_stops, coord_text_part, W1.
  - destruct W as [D ->]. rewrite <- app_assoc. eapply word_stops; [exact D | apply designator_not_space].
Qed.
Lemma spelt_words l t q b : spelt l t q -> spaced b -> forall r ws, stops dense r -> worded ws r ->
  exists w1 w2, worded (w1 :: w2 :: ws) (b ++ t ++ r) /\
    match l with LFix f => w1 = f /\ w2 = f | LCoord _ => part_text w1 /\ part_text w2 end.
Proof.
  intros S B r ws SR W. pose proof (sp_words _ _ _ S) as H. assert (SP : spaces (s2t " ")) by (split; [discriminate | repeat constructor]). destruct l as [p|name].
  - destruct H as [w1 [w2 [W1 [W2 ->]]]]. apply coord_text_part in W1, W2. exists w1, w2. split; [|auto]. apply worded_two; auto; [apply W1 | apply W2].
  - destruct H as [D ->]. pose proof (dense_word _ _ designator_dense D) as D'. exists name, name. split; [|auto]. apply worded_two; auto.
Qed.
(** The name is read up to the first line. *)
Lemma coloured_stops co u : coloured co -> stops dense (co ++ 10%N :: u) /\ stops number_stop (co ++ 10%N :: u) /\ stops designator_char (co ++ 10%N :: u).
Proof. intros [-> |[w [-> _]]]; repeat split; reflexivity. Qed.
Lemma coloured_words co u : coloured co -> exists col, worded col (co ++ 10%N :: u) /\ (col = [] \/ exists x, col = [x]).
Proof.
  intros [-> |[w [-> W]]].
  - exists []. split; [|auto]. apply (worded_end [] 10%N u); [constructor | reflexivity].
  - exists [w]. split; [|eauto]. rewrite <- app_assoc. apply worded_cons; [repeat constructor | eapply dense_word; [apply colour_dense | exact W] | reflexivity|].
    apply (worded_end [] 10%N u); [constructor | reflexivity].
Qed.
Lemma coord_not_fix a t r : designator t -> stops (fun c => (c =? 46)%N) r -> stops designator_char r -> ko G a &"sct_coordinate" (t ++ r).
Proof.
  intros [N D] S S'. apply ko_by; [destruct a; reflexivity|]. intros c r' ts E Y. destruct (coord_yes _ _ _ _ Y) as [p [b [q [[_ P] [_ [_ ->]]]]]].
  destruct P as [h [d [x [_ [[_ DD] ->]]]]].
  assert (H : designator_char h = true) by (destruct D; [congruence | cbn [app] in E; injection E as <- _; assumption]).
  destruct (split_word designator_char t r (h :: d) (s2t "." ++ x ++ (b ++ q) ++ r') D) as [_ ->].
  - constructor; [exact H|]. eapply Forall_impl; [|exact DD]. intros y Z. unfold designator_char. cbv beta in Z. rewrite Z. apply orb_true_r.
  - exact S'.
  - reflexivity.
  - rewrite E. cbn [app]. rewrite <- !app_assoc. reflexivity.
  - discriminate S.
Qed.
Lemma ending_ok l1 l2 t1 t2 q1 q2 b co u : spelt l1 t1 q1 -> spelt l2 t2 q2 -> spaces b -> coloured co ->
  match l1, l2 with LFix _, LFix _ | LCoord _, LCoord _ => True | _, _ => False end ->
  exists r ts, okt Compound ending (b ++ t1 ++ s2t " " ++ t2 ++ co ++ 10%N :: u) r ts.
Proof.
  intros S1 S2 B C M. destruct (coloured_stops co u C) as [_ [C2 C3]].
  destruct (sp_read _ _ _ S1 Compound (s2t " " ++ t2 ++ co ++ 10%N :: u)) as [tr1 [R1 [_ O1]]]; [reflexivity | reflexivity|].
  destruct (sp_read _ _ _ S2 Compound (co ++ 10%N :: u)) as [tr2 [R2 [_ O2]]]; [exact C2 | exact C3|].
  rewrite R1 in O1. rewrite R2 in O2.
  destruct l1 as [p1|f1], l2 as [p2|f2]; try contradiction.
  - destruct (ahead_ok "sct_coordinate" b t1 t2 co u [tr1] [tr2]) as [r [ts O]]; try assumption; eauto using spelt_stops.
    exists r, ts. apply okt_alt1, O.
  - destruct (ahead_ok "airway_fix" b t1 t2 co u [tr1] [tr2]) as [r [ts O]]; try assumption; eauto using spelt_stops.
    exists r, ts. apply okt_alt2; [|apply okt_alt1, O].
    destruct (sp_words _ _ _ S1) as [D ->]. apply ko_seq1, ko_seq1.
    eapply ko_seq2_att; [discriminate | apply okt_ws; [discriminate | exact B | apply (spelt_stops _ _ _ S1)]|].
    rewrite <- app_assoc. apply coord_not_fix; [exact D | reflexivity | reflexivity].
Qed.
Lemma name_tok name b l1 l2 t1 t2 q1 q2 co u : name <> [] -> free_of (s2t "[]") name -> (forall c r, name = r ++ [c] -> space c = false) ->
  spelt l1 t1 q1 -> spelt l2 t2 q2 -> spaces b -> coloured co ->
  match l1, l2 with LFix a, LFix b => a <> b | LCoord _, LCoord _ => True | _, _ => False end ->
  let rest := b ++ t1 ++ s2t " " ++ t2 ++ co ++ 10%N :: u in
  okt NonAtomic &"non_coordinate_or_double_fix_name" (name ++ rest) rest [T "non_coordinate_or_double_fix_name" name []].
Proof.
  intros N F E S1 S2 B C M rest.
  assert (O : okt Compound (Plus (until ending)) (name ++ rest) rest []).
  { destruct (coloured_words co u C) as [col [W CL]]. destruct (coloured_stops co u C) as [SD _].
    destruct (spelt_words _ _ _ (s2t " ") S2 spaced_one _ _ SD W) as [w3 [w4 [W2 M2]]].
    destruct (spelt_words _ _ _ b S1 (proj2 B) (s2t " " ++ t2 ++ co ++ 10%N :: u) _ eq_refl W2) as [w1 [w2 [W1 M1]]].
    apply plus_until; [discriminate | exact N | | ].
    - eapply (name_inside name rest [w1; w2; w3; w4] col); [exact F | exact E | | exact CL | apply spaces_stops_dense, B | exact W1].
      pose proof (sp_words _ _ _ S1) as D1. pose proof (sp_words _ _ _ S2) as D2.
      destruct l1 as [p1|f1], l2 as [p2|f2]; try contradiction.
      + right. exists w1, w2, w3, w4. tauto.
      + left. destruct M1 as [-> ->], M2 as [-> ->]. exists f1, f2. split; [apply D1|]. split; [apply D2|]. split; [exact M | reflexivity].
    - destruct (ending_ok _ _ _ _ _ _ b co u S1 S2 B C) as [r [ts OE]]; [destruct l1, l2; tauto|]. eapply until_ko, OE. }
  destruct (okt_compound _ _ name_rule NonAtomic _ _ _ O) as [c [EC OC]]. apply app_inv_tail in EC. subst c. exact OC.
Qed.
