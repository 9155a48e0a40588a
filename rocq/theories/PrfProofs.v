(** Proofs about .prf profiles: exactly the specified files are read. *)
From Coq Require Import ZifyBool ZifyN ZifyNat.
From Verif Require Import Base Unicode Peg Grammars SpecPeg PegProofs PegLang PegForward PegSkip TextProofs Trees Paths Prf SpecPrf.
Local Open Scope string_scope.
Local Open Scope list_scope.

Notation G := prf_grammar.
Ltac then_inv H c1 c2 t1 t2 X Y := destruct H as [c1 [c2 [t1 [t2 [-> [-> [X Y]]]]]]].
Lemma quiet_prf : quiet G = true. Proof. reflexivity. Qed.
Lemma skip_ok c r : Forall (fun x => sptab x = true) c -> stops sptab r -> ok G NonAtomic Skip c r [].
Proof. apply (skip_plain_ok G sptab SPTAB); try reflexivity; apply one_sptab. Qed.
Lemma skip_yes c r : skips G c r -> Forall (fun x => sptab x = true) c /\ stops sptab r.
Proof. apply (skip_plain_yes G sptab SPTAB quiet_prf); try reflexivity; apply one'_sptab. Qed.

(** characters *)
Lemma letter_space c : is_letter c = true -> is_space c = false.
Proof.
  intros L. destruct (is_space c) eqn:S; [|reflexivity]. unfold is_space in S.
  assert (c = 32 \/ c = 9 \/ c = 13 \/ c = 10)%N as [->|[->|[->| ->]]] by lia; vm_compute in L; discriminate L.
Qed.
Lemma key_space c : key_char c = true -> is_space c = false.
Proof.
  unfold key_char. intros K. destruct (is_letter c) eqn:L; [apply letter_space, L|]. cbn [orb] in K. unfold is_space, is_digit in *. lia.
Qed.
Lemma blank_space c : blank c = true -> is_space c = true.
Proof. unfold blank, is_space. lia. Qed.
Lemma not_starts f s : ~ starts_with f s -> stops f s.
Proof. destruct s as [|c s]; [intros _; exact I|]. intros N. cbn. destruct (f c) eqn:E; [|reflexivity]. contradiction N. exists c, s. auto. Qed.
Lemma stops_not f s : stops f s -> ~ starts_with f s.
Proof. intros S [c [r [-> E]]]. cbn in S. congruence. Qed.
Lemma stops_app f s r : s <> [] -> stops f s -> stops f (s ++ r).
Proof. destruct s as [|c s]; [congruence | auto]. Qed.
Lemma app_stops f s r : s <> [] -> stops f (s ++ r) -> stops f s.
Proof. destruct s as [|c s]; [congruence | auto]. Qed.
Lemma spaces_app a b : spaces a -> spaces b -> spaces (a ++ b).
Proof. intros A B. apply Forall_app. auto. Qed.
Lemma blanks_spaces b : Forall (fun x => sptab x = true) b -> spaces b.
Proof. intros F. eapply Forall_impl; [|exact F]. intros c. apply blank_space. Qed.
Lemma newline_spaces nl : newline nl -> spaces nl.
Proof. intros H. destruct H; repeat constructor. Qed.

(** ** What is accepted is a file *)
Lemma file_spaces w t es : spaces w -> prf_file t es -> prf_file (w ++ t) es.
Proof.
  intros W [w' W'|w' l e W' L|w' l e r es' W' L F].
  - apply prf_end, spaces_app; assumption.
  - rewrite app_assoc. apply prf_last; [apply spaces_app|]; assumption.
  - rewrite app_assoc. apply prf_line; [apply spaces_app|..]; assumption.
Qed.
Lemma line_nonnil l e : setting_line l e -> l <> [].
Proof. intros [cat b1 key b2 val N _ _ _ _ _ _ _ _ _ _]. destruct cat; [contradiction N; reflexivity | discriminate]. Qed.
Lemma file_nil es : prf_file [] es -> es = [].
Proof.
  intros F. inversion F as [|w l e W L E|w l e r es' W L F' E]; [reflexivity|..].
  - apply app_eq_nil in E. destruct E as [_ ->]. apply line_nonnil in L. contradiction L. reflexivity.
  - apply app_eq_nil in E. destruct E as [_ E]. apply app_eq_nil in E. destruct E as [_ E]. discriminate E.
Qed.

Lemma one'_letter a : one' G a LETTER is_letter. Proof. apply one'_sat. Qed.
Lemma one'_key a : one' G a (LETTER // ASCII_DIGIT // str "_") key_char.
Proof.
  eapply one'_ext; [apply one'_alt; [apply one'_sat | apply one'_alt; [apply one'_sat | apply (one'_chr G a 95)]]|].
  intros c. unfold key_char. cbv beta. rewrite orb_assoc. reflexivity.
Qed.
Lemma one'_value a : a <> NonAtomic -> one' G a (until (chr 10)) (fun c => negb (c =? 10)%N).
Proof.
  intros A. apply one'_until; [exact A | apply (one'_chr G a 10)|]. intros c r E. apply N.eqb_eq in E. subst. apply (ok_str G a [10]%N).
Qed.
Definition setting_tree (c : text) (e : entry) : tree :=
  T "setting" c [T "category" (e_category e) []; T "key" (e_key e) []; T "value" (e_value e) []].

Lemma lines_spaces c r ts : reps (yes G NonAtomic (Then Skip NEWLINE)) (no G NonAtomic (Then Skip NEWLINE)) c r ts -> spaces c /\ ts = [].
Proof.
  intros R. induction R as [r _|c1 c2 r t1 t2 H _ [IH ->]]; [split; [constructor | reflexivity]|].
  then_inv H a1 b1 u1 v1 HS HN. destruct HS as [-> HS]. apply skip_yes in HS. apply yes_newline in HN. destruct HN as [HN [-> _]].
  split; [|reflexivity]. apply spaces_app; [|exact IH]. apply spaces_app; [apply blanks_spaces, HS | apply newline_spaces, HN].
Qed.
Lemma nl_yes c r ts : node G "NL" NonAtomic c r ts -> ts = [] /\ spaces c /\ exists x c', c = x :: c' /\ is_nl x = true.
Proof.
  intros H. destruct (node_inv G quiet_prf _ _ _ _ _ H _ _ eq_refl) as [ts' [Y ->]].
  change (yes G NonAtomic (Plus NEWLINE) c r ts') in Y. then_inv Y a1 b1 u1 v1 Y1 Y. then_inv Y a2 b2 u2 v2 Y2 Y.
  destruct Y2 as [-> Y2]. apply skip_yes in Y2. apply yes_newline in Y1. destruct Y1 as [NL [-> _]].
  assert (X : v2 = [] /\ spaces b2).
  { destruct Y as [Y|[-> [-> _]]]; [|split; [reflexivity | constructor]].
    then_inv Y a3 b3 u3 v3 Y3 Y4. apply yes_newline in Y3. destruct Y3 as [NL3 [-> _]]. apply lines_spaces in Y4. destruct Y4 as [Y4 ->].
    split; [reflexivity|]. apply spaces_app; [apply newline_spaces, NL3 | exact Y4]. }
  destruct X as [-> X]. split; [reflexivity|]. split.
  - apply spaces_app; [apply newline_spaces, NL|]. apply spaces_app; [apply blanks_spaces, Y2 | exact X].
  - destruct NL; eexists _, _; (split; [reflexivity | reflexivity]).
Qed.
Lemma word_yes n (f : N -> bool) e a c r ts : get n G = Some (KAtomic, Plus e) -> one' G Atomic e f -> a <> Atomic ->
  node G n a c r ts -> c <> [] /\ Forall (fun x => f x = true) c /\ stops f r /\ ts = [T n c []].
Proof.
  intros E O A H. destruct (node_inv G quiet_prf _ _ _ _ _ H _ _ E) as [ts' [Y ->]].
  apply (yes_plus_one G Atomic _ f) in Y; [|discriminate | exact O]. destruct Y as [N [F [S ->]]]. repeat split; try assumption.
  destruct a; [reflexivity..|congruence].
Qed.
Lemma setting_yes c r ts : node G "setting" NonAtomic c r ts ->
  exists e, ts = [setting_tree c e] /\ forall es, prf_file r es -> prf_file (c ++ r) (e :: es).
Proof.
  intros H. destruct (node_inv G quiet_prf _ _ _ _ _ H _ _ eq_refl) as [ts' [Y ->]].
  then_inv Y a1 b1 u1 v1 Y1 Y. then_inv Y a2 b2 u2 v2 G1 Y. then_inv Y a3 b3 u3 v3 Y3 Y. then_inv Y a4 b4 u4 v4 G2 Y.
  then_inv Y a5 b5 u5 v5 Y5 Y. then_inv Y a6 b6 u6 v6 G3 Y.
  destruct G1 as [-> G1]. apply skip_yes in G1. destruct G2 as [-> G2]. apply skip_yes in G2. destruct G3 as [-> G3]. apply skip_yes in G3.
  apply (word_yes "category" is_letter LETTER) in Y1; [|reflexivity | apply one'_letter | discriminate]. destruct Y1 as [N1 [F1 [S1 ->]]].
  apply (word_yes "key" key_char (LETTER // ASCII_DIGIT // str "_")) in Y3; [|reflexivity | apply one'_key | discriminate]. destruct Y3 as [N3 [F3 [S3 ->]]].
  apply (word_yes "value" (fun c => negb (c =? 10)%N) (until (chr 10))) in Y5; [|reflexivity | apply one'_value; discriminate | discriminate].
  destruct Y5 as [N5 [F5 [S5 ->]]]. destruct G1 as [B1 GS1]. destruct G2 as [B2 GS2]. destruct G3 as [B3 GS3].
  rewrite <- !app_assoc in *.
  assert (a6 = []) as ->.
  { destruct B3 as [|x a6 X _]; [reflexivity|]. cbn in S5. apply negb_false_iff, N.eqb_eq in S5. subst x. discriminate X. }
  assert (L : setting_line (a1 ++ a2 ++ a3 ++ a4 ++ a5) (mkEntry a1 a3 a5)).
  { apply setting_intro; try assumption.
    - intros ->. cbn [app] in S1. apply stops_not. apply app_stops in S1; assumption.
    - intros ->. cbn [app] in S3. apply stops_not. apply app_stops in S3; assumption.
    - intros I10. rewrite Forall_forall in F5. specialize (F5 _ I10). discriminate F5.
    - apply stops_not. apply app_stops in GS2; assumption. }
  assert (X : v6 = [] /\ (b6 = [] /\ r = [] \/ exists w, b6 = 10%N :: w /\ spaces w)).
  { destruct Y as [Y|[-> [-> NY]]].
    - cbn [yes] in Y. apply nl_yes in Y. destruct Y as [-> [SP [x [c' [-> NLx]]]]]. split; [reflexivity|]. right.
      cbn in S5. apply negb_false_iff, N.eqb_eq in S5. subst x. exists c'. split; [reflexivity|]. inversion SP; assumption.
    - split; [reflexivity|]. left. split; [reflexivity|]. destruct r as [|x r]; [reflexivity|]. exfalso.
      cbn in S5. apply negb_false_iff, N.eqb_eq in S5. subst x.
      cbn [no] in NY. pose proof (nonode_inv G quiet_prf _ _ _ NY _ _ eq_refl) as NZ. clear NY. rename NZ into NY.
      destruct NY as [NY|[c1 [r1 [t1 [E [Y1 NY]]]]]].
      + apply no_newline in NY. discriminate NY.
      + destruct NY as [[]|[c2 [r2 [t2 [E2 [Y2 []]]]]]]. }
  destruct X as [-> X]. exists (mkEntry a1 a3 a5). split; [reflexivity|]. intros es F. cbn [app] in *.
  replace (a1 ++ a2 ++ a3 ++ a4 ++ a5 ++ b6 ++ r) with ([] ++ (a1 ++ a2 ++ a3 ++ a4 ++ a5) ++ b6 ++ r) by (cbn [app]; rewrite <- !app_assoc; reflexivity).
  destruct X as [[-> ->]|[w [-> W]]].
  - apply file_nil in F. subst es. rewrite !app_nil_r. apply (prf_last []); [constructor | exact L].
  - apply (prf_line [] _ _ (w ++ r)); [constructor | exact L | apply file_spaces; assumption].
Qed.
Definition setting_trees := Forall2 (fun e t => exists c, t = setting_tree c e).
Lemma settings_many_yes c r ts : reps (yes G NonAtomic (Then Skip (Call "setting"))) (no G NonAtomic (Then Skip (Call "setting"))) c r ts ->
  exists es, setting_trees es ts /\ (prf_file r [] -> prf_file (c ++ r) es).
Proof.
  intros R. induction R as [r _|c1 c2 r t1 t2 H _ [es [F IH]]]; [exists []; split; [constructor | auto]|].
  then_inv H a1 b1 u1 v1 HS HW. destruct HS as [-> HS]. apply skip_yes in HS. apply setting_yes in HW. destruct HW as [e [-> HW]].
  exists (e :: es). split; [constructor; [eauto | exact F]|]. intros FR. rewrite <- !app_assoc in *.
  apply file_spaces; [apply blanks_spaces, HS|]. auto.
Qed.
Theorem prf_yes t c r k ts : parse G "prf" t = Ok c r k ts ->
  exists es ts', es <> [] /\ ts = [T "prf" t (ts' ++ [T "EOI" [] []])] /\ setting_trees es ts' /\ prf_file t es.
Proof.
  intros E. apply parse_node in E. destruct E as [-> H]. destruct (node_inv G quiet_prf _ _ _ _ _ H _ _ eq_refl) as [ts0 [Y ->]].
  then_inv Y a1 b1 u1 v1 Ysoi Y. destruct Ysoi as [-> ->]. then_inv Y a2 b2 u2 v2 G1 Y. destruct G1 as [-> G1]. apply skip_yes in G1.
  then_inv Y a3 b3 u3 v3 Yn Y. then_inv Y a4 b4 u4 v4 G2 Y. destruct G2 as [-> G2]. apply skip_yes in G2. then_inv Y a5 b5 u5 v5 Yw Y. then_inv Y a6 b6 u6 v6 G3 Ye.
  destruct G3 as [-> G3]. apply skip_yes in G3. destruct Ye as [-> [-> ->]].
  then_inv Yw a7 b7 u7 v7 Y1 Yw. then_inv Yw a8 b8 u8 v8 G4 Yw. destruct G4 as [-> G4]. apply skip_yes in G4.
  apply setting_yes in Y1. destruct Y1 as [e [-> Y1]].
  assert (NLX : u3 = [] /\ spaces a3).
  { destruct Yn as [Yn|[-> [-> _]]]; [|split; [reflexivity | constructor]]. cbn [yes] in Yn. apply nl_yes in Yn. tauto. }
  destruct NLX as [-> NLX].
  assert (EOFF : prf_file a6 []) by (apply prf_end, blanks_spaces, G3).
  assert (W : exists es, setting_trees es v8 /\ prf_file (b8 ++ a6) es).
  { destruct Yw as [Yw|[-> [-> _]]].
    - then_inv Yw a9 b9 u9 v9 Yw1 Yw2. apply setting_yes in Yw1. destruct Yw1 as [e' [-> Yw1]].
      apply settings_many_yes in Yw2. destruct Yw2 as [es [F Yw2]]. exists (e' :: es). split; [constructor; [eauto | exact F]|].
      rewrite <- !app_assoc in *. cbn [app] in *. rewrite ?app_nil_r in *. apply Yw1, Yw2, EOFF.
    - exists []. split; [constructor | exact EOFF]. }
  destruct W as [es [F W]]. exists (e :: es), (setting_tree a7 e :: v8). split; [discriminate|].
  cbn [app] in *. rewrite ?app_nil_r in *. split; [rewrite <- ?app_assoc; reflexivity|]. split; [constructor; [eauto | exact F]|].
  rewrite <- !app_assoc in *. apply file_spaces; [apply blanks_spaces, G1|]. apply file_spaces; [exact NLX|].
  apply file_spaces; [apply blanks_spaces, G2|]. apply Y1. apply file_spaces; [apply blanks_spaces, G4 | exact W].
Qed.

(** ** Every file is accepted *)
Lemma one_letter a : one G a LETTER is_letter. Proof. apply one_sat. Qed.
Lemma one_key a : one G a (LETTER // ASCII_DIGIT // str "_") key_char.
Proof.
  eapply one_ext; [apply one_alt; [apply one_sat | apply one_alt; [apply one_sat | apply (one_chr G a 95)]]|].
  intros c. unfold key_char. cbv beta. rewrite orb_assoc. reflexivity.
Qed.
Lemma one_value a : a <> NonAtomic -> one G a (until (chr 10)) (fun c => negb (c =? 10)%N).
Proof. intros A. apply one_until; [exact A | apply (one_chr G a 10)]. Qed.
Lemma word_ok n (f : N -> bool) e c r : get n G = Some (KAtomic, Plus e) -> one G Atomic e f ->
  c <> [] -> Forall (fun x => f x = true) c -> stops f r -> ok G NonAtomic (Call n) c r [T n c []].
Proof.
  intros E O N F S. apply (ok_call G NonAtomic n KAtomic (Plus e) c r [] E). cbn [body_atom].
  eapply ok_plus_one; [discriminate | exact O | assumption..].
Qed.
(** at the end of the file or at a line *)
Inductive at_entry : text -> list entry -> Prop :=
| at_end : at_entry [] []
| at_last l e : setting_line l e -> at_entry l [e]
| at_line l e r es : setting_line l e -> prf_file r es -> at_entry (l ++ 10%N :: r) (e :: es).
Lemma line_stops l e r : setting_line l e -> stops is_space (l ++ r).
Proof.
  intros [cat b1 key b2 val N F _ _ _ _ _ _ _ _ _]. destruct F as [|c cat C _]; [contradiction N; reflexivity|]. cbn. apply letter_space, C.
Qed.
Lemma at_entry_stops r es : at_entry r es -> stops is_space r.
Proof. intros [|l e L|l e r' es' L _]; [exact I | rewrite <- (app_nil_r l) | ]; eapply line_stops; eassumption. Qed.
Lemma space_stops f r : (forall c, f c = true -> is_space c = true) -> stops is_space r -> stops f r.
Proof. intros H. destruct r as [|c r]; [auto|]. cbn. intros S. destruct (f c) eqn:E; [apply H in E; congruence | reflexivity]. Qed.
Lemma stops_sptab r : stops is_space r -> stops sptab r.
Proof. apply space_stops. intros c. unfold sptab, is_space. lia. Qed.
Lemma stops_is_nl r : stops is_space r -> stops is_nl r.
Proof. apply space_stops. intros c. unfold is_nl, is_space. lia. Qed.
Lemma file_at t es : prf_file t es -> exists w r, t = w ++ r /\ spaces w /\ at_entry r es.
Proof.
  intros [w W|w l e W L|w l e r es' W L F].
  - exists w, []. rewrite app_nil_r. split; [reflexivity|]. split; [exact W | constructor].
  - exists w, l. split; [reflexivity|]. split; [exact W | constructor; exact L].
  - exists w, (l ++ 10%N :: r). split; [reflexivity|]. split; [exact W | constructor; assumption].
Qed.
Lemma skip_then_ko e g r : Forall (fun x => sptab x = true) g -> stops sptab r -> ko G NonAtomic e r -> ko G NonAtomic (Then Skip e) (g ++ r).
Proof. intros F S K. eapply ko_then2; [apply skip_ok; assumption | exact K]. Qed.
Lemma skip_then_ok e g c r ts : Forall (fun x => sptab x = true) g -> stops sptab (c ++ r) -> ok G NonAtomic e c r ts -> ok G NonAtomic (Then Skip e) (g ++ c) r ts.
Proof. intros F S K. apply (ok_then G NonAtomic Skip e g c r [] ts); [apply skip_ok; assumption | exact K]. Qed.

(** white space is blanks, or blanks and a newline before white space *)
Lemma spaces_cases w r : spaces w -> stops is_space r -> Forall (fun x => sptab x = true) w \/
  exists b nl w', w = b ++ nl ++ w' /\ Forall (fun x => sptab x = true) b /\ nl <> [] /\ stops sptab (nl ++ w' ++ r) /\ spaces w' /\
    ok G NonAtomic NEWLINE nl (w' ++ r) [].
Proof.
  intros W S. induction W as [|c w C W IH]; [left; constructor|].
  destruct (sptab c) eqn:B.
  - destruct IH as [F|[b [nl [w' [-> [F [N [ST [W' O]]]]]]]]]; [left; constructor; assumption|]. right.
    exists (c :: b), nl, w'. repeat split; try assumption. constructor; assumption.
  - right. exists []. assert (c = 13 \/ c = 10)%N as [->| ->] by (unfold is_space, sptab in *; lia).
    + destruct w as [|d w]; [|destruct (N.eq_dec d 10) as [->|D]].
      * exists [13]%N, []. split; [reflexivity|]; split; [constructor|]; split; [discriminate|]; split; [reflexivity|]; split; [constructor|]. apply ok_newline_cr. intros r' E. cbn [app] in E. subst r. discriminate S.
      * exists [13; 10]%N, w. inversion W; subst. split; [reflexivity|]; split; [constructor|]; split; [discriminate|]; split; [reflexivity|]; split; [assumption|]. apply ok_newline_crlf.
      * exists [13]%N, (d :: w). split; [reflexivity|]; split; [constructor|]; split; [discriminate|]; split; [reflexivity|]; split; [exact W|]. apply ok_newline_cr. intros r' E. injection E as -> _. contradiction D. reflexivity.
    + exists [10]%N, w. split; [reflexivity|]; split; [constructor|]; split; [discriminate|]; split; [reflexivity|]; split; [exact W|]. apply ok_newline_lf.
Qed.
Lemma nls_ok n : forall w r, List.length w <= n -> spaces w -> stops is_space r -> exists c g,
  w = c ++ g /\ ok G NonAtomic (Many (Then Skip NEWLINE)) c (g ++ r) [] /\ Forall (fun x => sptab x = true) g.
Proof.
  induction n as [|n IH]; intros w r L W S; destruct (spaces_cases w r W S) as [F|[b [nl [w' [-> [F [N [ST [W' O]]]]]]]]].
  1, 3: exists [], w; split; [reflexivity|]; split; [|exact F]; apply ok_many_nil, skip_then_ko;
    [exact F | apply stops_sptab, S | apply ko_newline, stops_is_nl, S].
  - exfalso. rewrite !app_length in L. destruct nl; [contradiction N; reflexivity | cbn in L; lia].
  - destruct (IH w' r) as [c [g [-> [OC GB]]]]; [|assumption..|].
    { rewrite !app_length in L. destruct nl; [contradiction N; reflexivity | cbn [List.length] in L; lia]. }
    exists ((b ++ nl) ++ c), g. split; [rewrite <- !app_assoc; reflexivity|]. split; [|exact GB].
    rewrite <- app_assoc in ST, O. apply (ok_many_cons G NonAtomic _ (b ++ nl) c _ [] []); [|exact OC]. apply skip_then_ok; assumption.
Qed.
Lemma nl_ok nl w r : ok G NonAtomic NEWLINE nl (w ++ r) [] -> spaces w -> stops is_space r -> exists c g,
  w = c ++ g /\ ok G NonAtomic (Call "NL") (nl ++ c) (g ++ r) [] /\ Forall (fun x => sptab x = true) g.
Proof.
  intros O W S.
  assert (C : forall c r', w ++ r = c ++ r' -> ok G NonAtomic (Then Skip (Peg.Star NEWLINE)) c r' [] -> ok G NonAtomic (Call "NL") (nl ++ c) r' []).
  { intros c r' E OC. apply (ok_call G NonAtomic "NL" KSilent _ (nl ++ c) r' [] eq_refl).
    apply (ok_then G NonAtomic NEWLINE _ nl c r' [] []); [rewrite <- E; exact O | exact OC]. }
  destruct (spaces_cases w r W S) as [F|[b [nl2 [w' [-> [F [N [ST [W' O']]]]]]]]].
  - exists w, []. rewrite app_nil_r. split; [reflexivity|]. split; [|constructor]. apply C; [reflexivity|].
    rewrite <- (app_nil_r w). apply skip_then_ok; [exact F | apply stops_sptab, S | apply ok_star_nil, ko_newline, stops_is_nl, S].
  - destruct (nls_ok _ w' r (Nat.le_refl _) W' S) as [c [g [-> [OC GB]]]].
    exists (b ++ nl2 ++ c), g. split; [rewrite <- !app_assoc; reflexivity|]. split; [|exact GB]. apply C; [rewrite <- !app_assoc; reflexivity|].
    rewrite <- app_assoc in ST, O'.
    apply skip_then_ok; [exact F | rewrite <- app_assoc; exact ST|]. apply ok_opt. apply (ok_then G NonAtomic NEWLINE _ nl2 c _ [] []); assumption.
Qed.

Lemma setting_ok r e es : at_entry r (e :: es) -> exists c g r',
  r = c ++ g ++ r' /\ ok G NonAtomic (Call "setting") c (g ++ r') [setting_tree c e] /\ Forall (fun x => sptab x = true) g /\ at_entry r' es.
Proof.
  intros A.
  assert (X : exists l nl g r', r = l ++ nl ++ g ++ r' /\ setting_line l e /\ stops (fun c => negb (c =? 10)%N) (nl ++ g ++ r') /\
    ok G NonAtomic (Opt (Call "NL")) nl (g ++ r') [] /\ Forall (fun x => sptab x = true) g /\ at_entry r' es).
  { inversion A as [|l e' L|l e' r0 es' L F]; subst.
    - exists r, [], [], []. rewrite app_nil_r. split; [reflexivity|]. split; [exact L|]. split; [exact I|]. split; [|split; constructor].
      apply ok_opt_no. eapply ko_call; [reflexivity|]. apply ko_seq1, ko_newline. exact I.
    - destruct (file_at r0 es F) as [w [r' [-> [W A']]]]. pose proof (at_entry_stops _ _ A') as S.
      destruct (nl_ok [10]%N w r' (ok_newline_lf _ _ _) W S) as [c [g [-> [O GB]]]].
      exists l, ([10%N] ++ c), g, r'. split; [cbn [app]; rewrite <- !app_assoc; reflexivity|]. split; [exact L|]. split; [reflexivity|].
      split; [apply ok_opt, O | auto]. }
  destruct X as [l [nl [g [r' [-> [L [S [O [GB A']]]]]]]]]. inversion L as [cat b1 key b2 val N1 F1 B1 C1 N2 F2 B2 C2 N3 F3 C3]; subst.
  exists ((cat ++ b1 ++ key ++ b2 ++ val) ++ nl), g, r'. split; [rewrite <- !app_assoc; reflexivity|]. split; [|auto].
  apply (ok_call G NonAtomic "setting" KNormal _ _ _ [T "category" cat []; T "key" key []; T "value" val []] eq_refl).
  rewrite <- !app_assoc.
  assert (SV : stops key_char (b2 ++ val ++ nl ++ g ++ r')).
  { destruct B2 as [|x b2 X _]; [cbn [app]; apply stops_app; [exact N3 | apply not_starts, C2; reflexivity]|]. cbn [app stops].
    destruct (key_char x) eqn:K; [|reflexivity]. apply key_space in K. apply blank_space in X. congruence. }
  assert (SK : stops is_letter (b1 ++ key ++ b2 ++ val ++ nl ++ g ++ r')).
  { destruct B1 as [|x b1 X _]; [cbn [app]; apply stops_app; [exact N2 | apply not_starts, C1; reflexivity]|]. cbn [app stops].
    destruct (is_letter x) eqn:K; [|reflexivity]. apply letter_space in K. apply blank_space in X. congruence. }
  apply (ok_then G NonAtomic _ _ cat (b1 ++ key ++ b2 ++ val ++ nl) _ [_] [_; _]).
  { apply (word_ok "category" is_letter LETTER); try assumption; [reflexivity | apply one_letter|]. rewrite <- !app_assoc. exact SK. }
  apply (ok_then G NonAtomic _ _ b1 (key ++ b2 ++ val ++ nl) _ [] [_; _]).
  { apply skip_ok; [exact B1|]. rewrite <- !app_assoc. apply stops_app; [exact N2|]. apply stops_sptab.
    destruct F2 as [|x key X _]; [exact I|]. apply key_space, X. }
  apply (ok_then G NonAtomic _ _ key (b2 ++ val ++ nl) _ [_] [_]).
  { apply (word_ok "key" key_char (LETTER // ASCII_DIGIT // str "_")); try assumption; [reflexivity | apply one_key|]. rewrite <- !app_assoc. exact SV. }
  apply (ok_then G NonAtomic _ _ b2 (val ++ nl) _ [] [_]).
  { apply skip_ok; [exact B2|]. rewrite <- app_assoc. apply stops_app; [exact N3|]. apply not_starts, C3. }
  apply (ok_then G NonAtomic _ _ val nl _ [_] []).
  { apply (word_ok "value" (fun c => negb (c =? 10)%N) (until (chr 10))); try assumption; [reflexivity | apply one_value; discriminate|].
    apply Forall_forall. intros x X. destruct (x =? 10)%N eqn:E; [|reflexivity]. apply N.eqb_eq in E. subst. contradiction. }
  apply (skip_then_ok _ [] nl); [constructor| |exact O].
  destruct (nl ++ g ++ r') as [|x q]; [exact I|]. cbn in S |- *. apply negb_false_iff, N.eqb_eq in S. subst x. reflexivity.
Qed.
Lemma setting_ko : ko G NonAtomic (Call "setting") [].
Proof.
  eapply ko_call; [reflexivity|]. apply ko_seq1. eapply ko_call; [reflexivity|]. eapply ko_plus_one; [apply one_letter | exact I].
Qed.
Lemma settings_many_ok es : forall g r, Forall (fun x => sptab x = true) g -> at_entry r es -> exists c g' ts,
  g ++ r = c ++ g' /\ ok G NonAtomic (Many (Then Skip (Call "setting"))) c g' ts /\ Forall (fun x => sptab x = true) g' /\ setting_trees es ts.
Proof.
  induction es as [|e es IH]; intros g r GB A.
  - inversion A; subst. exists [], g, []. rewrite app_nil_r. split; [reflexivity|]. split; [|split; [exact GB | constructor]].
    apply ok_many_nil. rewrite <- (app_nil_r g). apply skip_then_ko; [exact GB | exact I | apply setting_ko].
  - pose proof (at_entry_stops _ _ A) as S. destruct (setting_ok r e es A) as [c [g2 [r2 [-> [O [G2 A2]]]]]].
    destruct (IH g2 r2 G2 A2) as [c3 [g3 [ts [E [O3 [G3 W]]]]]].
    exists ((g ++ c) ++ c3), g3, (setting_tree c e :: ts). rewrite <- app_assoc, E. split; [rewrite <- !app_assoc; reflexivity|].
    split; [|split; [exact G3 | constructor; eauto]].
    apply (ok_many_cons G NonAtomic _ (g ++ c) c3 g3 [_] ts); [|exact O3]. rewrite <- E. apply skip_then_ok; [exact GB | apply stops_sptab, S | exact O].
Qed.
Lemma prf_ok t es : prf_file t es -> es <> [] ->
  exists ts, setting_trees es ts /\ parse G "prf" t = Ok t [] [] [T "prf" t (ts ++ [T "EOI" [] []])].
Proof.
  intros F NE.
  assert (H : exists g0 nl g1 r, t = g0 ++ nl ++ g1 ++ r /\ Forall (fun x => sptab x = true) g0 /\ stops sptab (nl ++ g1 ++ r) /\
    ok G NonAtomic (Opt (Call "NL")) nl (g1 ++ r) [] /\ Forall (fun x => sptab x = true) g1 /\ at_entry r es).
  { destruct (file_at t es F) as [w [r [-> [W A]]]]. pose proof (at_entry_stops _ _ A) as S.
    destruct (spaces_cases w r W S) as [FB|[b [nl [w' [-> [FB [N [ST [W' O]]]]]]]]].
    - exists w, [], [], r. split; [reflexivity|]. split; [exact FB|]. split; [apply stops_sptab, S|]. split; [|split; [constructor | exact A]].
      apply ok_opt_no. eapply ko_call; [reflexivity|]. apply ko_seq1, ko_newline, stops_is_nl, S.
    - destruct (nl_ok nl w' r O W' S) as [c [g [-> [ON GB]]]]. exists b, (nl ++ c), g, r. rewrite <- !app_assoc in *. split; [reflexivity|].
      split; [exact FB|]. split; [exact ST|]. split; [apply ok_opt, ON | auto]. }
  destruct H as [g0 [nl [g1 [r [-> [G0 [S0 [ON [G1 A]]]]]]]]]. destruct es as [|e es]; [contradiction NE; reflexivity|].
  pose proof (stops_sptab _ (at_entry_stops _ _ A)) as S1.
  destruct (setting_ok r e es A) as [c [g2 [r2 [-> [O [G2 A2]]]]]]. pose proof (stops_sptab _ (at_entry_stops _ _ A2)) as S2.
  assert (W : exists c3 g3 ts, g2 ++ r2 = c3 ++ g3 /\ ok G NonAtomic (Then Skip (Peg.Star (Call "setting"))) c3 g3 ts /\
    Forall (fun x => sptab x = true) g3 /\ setting_trees es ts).
  { destruct es as [|e' es].
    - inversion A2; subst. exists g2, [], []. split; [reflexivity|]. split; [|split; constructor].
      rewrite <- (app_nil_r g2). apply skip_then_ok; [exact G2 | exact I | apply ok_star_nil, setting_ko].
    - destruct (setting_ok r2 e' es A2) as [c' [g3 [r3 [-> [O' [G3 A3]]]]]].
      destruct (settings_many_ok es g3 r3 G3 A3) as [c4 [g4 [ts [E [O4 [G4 W]]]]]].
      exists (g2 ++ c' ++ c4), g4, (setting_tree c' e' :: ts). rewrite E in *. split; [rewrite <- !app_assoc; reflexivity|].
      split; [|split; [exact G4 | constructor; eauto]].
      apply skip_then_ok; [exact G2 | rewrite <- app_assoc; exact S2|]. apply ok_opt.
      apply (ok_then G NonAtomic _ _ c' c4 g4 [_] ts); assumption. }
  destruct W as [c3 [g3 [ts [E [O3 [G3 WT]]]]]]. exists (setting_tree c e :: ts). split; [constructor; eauto|].
  apply parse_matches; [vm_compute; reflexivity|].
  set (t := g0 ++ nl ++ g1 ++ c ++ g2 ++ r2) in *.
  apply (m_call G NonAtomic "prf" KNormal _ true t [] (Some (t, [], [], (setting_tree c e :: ts) ++ [T "EOI" [] []])) eq_refl).
  rewrite <- (app_nil_r t) at 1. apply ok_soi_seq. subst t. rewrite E in *.
  apply skip_then_ok; [exact G0 | rewrite app_nil_r; exact S0|].
  apply (ok_then G NonAtomic _ _ nl _ _ [] _). { rewrite app_nil_r. exact ON. }
  apply skip_then_ok; [exact G1 | rewrite app_nil_r; exact S1|].
  replace (c ++ c3 ++ g3) with ((c ++ c3) ++ g3) by (rewrite <- app_assoc; reflexivity).
  apply (ok_then G NonAtomic _ _ (c ++ c3) g3 [] (setting_tree c e :: ts) [_]).
  - apply (ok_then G NonAtomic _ _ c c3 _ [_] ts); rewrite app_nil_r; assumption.
  - rewrite <- (app_nil_r g3). apply skip_then_ok; [exact G3 | exact I | apply ok_eoi; discriminate].
Qed.

(** ** The map *)
Definition pairs_of (es : list entry) : settings_map := map (fun e => ((e_category e, e_key e), e_value e)) es.
Lemma fold_settings es : forall ts acc, setting_trees es ts ->
  ofold prf_collect (ts ++ [T "EOI" [] []]) acc = Ret (put_all (pairs_of es) acc).
Proof.
  induction es as [|e es IH]; intros ts acc W; inversion W as [|? t ? ts' [c ->] W']; subst; [reflexivity|].
  cbn [app ofold]. change (prf_collect acc (setting_tree c e)) with (Ret (put (e_category e, e_key e) (e_value e) acc)). cbn [obind].
  rewrite IH by assumption. reflexivity.
Qed.
Lemma prf_total t : (exists es, es <> [] /\ prf_file t es /\ parse_settings t = Ret (of_list (pairs_of es))) \/
  (parse_settings t = Err /\ forall es, prf_file t es -> es = []).
Proof.
  assert (C : checks G "prf" = true) by (vm_compute; reflexivity).
  destruct (checks_returns G "prf" C t) as [[c [r [k [ts E]]]]|E].
  - left. destruct (prf_yes t c r k ts E) as [es [ts' [NE [-> [W F]]]]]. exists es. split; [exact NE|]. split; [exact F|].
    unfold parse_settings, top, pairs. rewrite E. cbn [obind next kids_of]. apply fold_settings, W.
  - right. split; [unfold parse_settings, top, pairs; rewrite E; reflexivity|]. intros es F. destruct es as [|e es]; [reflexivity|]. exfalso.
    destruct (prf_ok t _ F ltac:(discriminate)) as [ts [_ E']]. congruence.
Qed.
Lemma prf_reads t es : prf_file t es -> es <> [] -> parse_settings t = Ret (of_list (pairs_of es)).
Proof.
  intros F NE. destruct (prf_ok t es F NE) as [ts [W E]]. unfold parse_settings, top, pairs. rewrite E. cbn [obind next kids_of]. apply fold_settings, W.
Qed.
