(** Proofs about isec.txt: the grammar reads exactly the specified files. *)
From Coq Require Import ZifyBool ZifyN ZifyNat.
From Verif Require Import Base Float FloatParse Num Dms Peg Grammars SpecPeg PegProofs PegLang PegForward PegSkip SpecText TextProofs
  Trees Locations Isec SpecIsec.
Local Open Scope string_scope.
Local Open Scope list_scope.

Notation G := isec_grammar.
Lemma quiet_isec : quiet G = true. Proof. reflexivity. Qed.
Lemma skip_ok c r : gapped sptab c r -> ok G NonAtomic Skip c r [].
Proof. apply (skip_std_ok G sptab SPTAB); try reflexivity; apply one_sptab. Qed.
Lemma skip_yes c r : skips G c r -> gapped sptab c r.
Proof. apply (skip_std_yes G sptab SPTAB quiet_isec); try reflexivity; apply one'_sptab. Qed.

(** ** Reading: what is accepted is a file *)
Definition starts_line (c : text) : Prop := match c with x :: _ => is_nl x = false | [] => True end.
Lemma blanks_starts b c : blanks b -> starts_line c -> starts_line (b ++ c).
Proof. intros [|x b' X _] S; [exact S|]. cbn. unfold is_blank, is_nl in *. lia. Qed.
Lemma void_starts c : void_line c -> starts_line c.
Proof. intros [b B|b s B _|b s B _]; [rewrite <- (app_nil_r b)|..]; apply blanks_starts; try exact B; cbn; reflexivity. Qed.
Lemma entry_starts c e : entry_line c e -> c <> [] /\ starts_line c.
Proof.
  intros [b0 d b1 lat b2 lng b3 tail B0 [ND FD] _ _ _ _ _ _ _]. destruct FD as [|x d X _]; [contradiction ND; reflexivity|]. split.
  - destruct b0; discriminate.
  - apply blanks_starts; [exact B0|]. cbn [app starts_line]. unfold name_char, is_upper, is_digit, is_nl in *. lia.
Qed.
Lemma stops_nil c r : stops (fun x => negb (is_nl x)) (c ++ r) -> starts_line c -> c = [].
Proof. destruct c as [|x c]; [reflexivity|]. cbn. intros H H'. rewrite H' in H. discriminate. Qed.
Lemma entry_blanks b c e : blanks b -> entry_line c e -> entry_line (b ++ c) e.
Proof. intros B [b0 d b1 lat b2 lng b3 tail B0 ND S1 D1 S2 D2 B3 N3 V]. rewrite app_assoc. constructor; try assumption. apply blanks_app; assumption. Qed.
Lemma blanks_file b r es : blanks b -> isec_file r es -> isec_file (b ++ r) es.
Proof.
  intros B [c V|c nl r' es' V L F|c nl r' e es' V L F].
  - apply file_end, void_app; assumption.
  - rewrite app_assoc. apply file_void; try assumption. apply void_app; assumption.
  - rewrite app_assoc. apply file_entry; try assumption. apply entry_blanks; assumption.
Qed.
Lemma gap_file c r es : gapped sptab c r -> isec_file r es -> isec_file (c ++ r) es.
Proof.
  intros GP F. pose proof (gapped_void c r GP) as V. destruct GP as [bl [cm [-> [B [[-> _]|[C S]]]]]].
  - rewrite app_nil_r in *. apply blanks_file; assumption.
  - destruct F as [c' V'|c' nl r' es' V' L F|c' nl r' e es' V' L F].
    + pose proof (void_starts c' V') as VS. rewrite <- (app_nil_r c') in S. apply (stops_nil c' []) in S; [|exact VS]. subst c'.
      rewrite app_nil_r. apply file_end, V.
    + apply stops_nil in S; [|apply void_starts, V']. subst c'. cbn [app]. apply file_void; assumption.
    + pose proof (entry_starts c' e V') as [N VS]. apply stops_nil in S; [contradiction | exact VS].
Qed.
Ltac then_inv H c1 c2 t1 t2 X Y := destruct H as [c1 [c2 [t1 [t2 [-> [-> [X Y]]]]]]].
Lemma lines_file c r ts es : reps (yes G NonAtomic (Then Skip NEWLINE)) (no G NonAtomic (Then Skip NEWLINE)) c r ts ->
  (isec_file r es -> isec_file (c ++ r) es) /\ ts = [].
Proof.
  intros R. induction R as [r _|c1 c2 r t1 t2 H _ IH]; [auto|]. destruct IH as [IH ->]. then_inv H a1 b1 u1 v1 HS HN.
  destruct HS as [-> HS]. apply yes_newline in HN. destruct HN as [HN [-> _]]. split; [|reflexivity]. intros F. specialize (IH F).
  rewrite <- !app_assoc. apply file_void; [|apply line_end_newline, HN | exact IH]. eapply gapped_void, skip_yes, HS.
Qed.
Lemma nl_yes c r ts : node G "NL" NonAtomic c r ts ->
  ts = [] /\ exists nl c', c = nl ++ c' /\ line_end nl /\ forall es, isec_file r es -> isec_file (c' ++ r) es.
Proof.
  intros H. destruct (node_inv G quiet_isec _ _ _ _ _ H _ _ eq_refl) as [ts' [Y ->]].
  change (yes G NonAtomic (Plus NEWLINE) c r ts') in Y. then_inv Y a1 b1 u1 v1 Y1 Y. then_inv Y a2 b2 u2 v2 Y2 Y. destruct Y2 as [-> Y2]. apply skip_yes in Y2.
  apply yes_newline in Y1. destruct Y1 as [NL [-> _]]. rewrite <- line_end_newline in NL. destruct Y as [Y|[-> [-> _]]].
  - then_inv Y a3 b3 u3 v3 Y3 Y4. apply yes_newline in Y3. destruct Y3 as [NL3 [-> _]].
    assert (v3 = []) as -> by (apply (lines_file _ _ _ []) in Y4; apply Y4).
    split; [reflexivity|]. eexists _, _. split; [reflexivity|]. split; [exact NL|]. intros es F.
    rewrite <- !app_assoc in *. apply gap_file; [exact Y2|]. apply (file_void []); [apply void_blank; constructor | apply line_end_newline, NL3|].
    apply (lines_file _ _ _ es) in Y4. apply Y4, F.
  - split; [reflexivity|]. eexists _, _. split; [reflexivity|]. split; [exact NL|]. intros es F. rewrite app_nil_r. apply gap_file; [exact Y2 | exact F].
Qed.

Definition coord_tree (c lat lng : text) : tree :=
  T "coord" c [T "coord_part" lat [T "DECIMAL" lat []]; T "coord_part" lng [T "DECIMAL" lng []]].
Definition wpt_tree (c cc : text) (e : entry) : tree :=
  T "wpt" c [T "designator" (e_des e) []; coord_tree cc (e_lat e) (e_lng e)].

Lemma one'_name : one' G Compound (ASCII_ALPHA_UPPER // ASCII_DIGIT) name_char.
Proof. apply (one'_alt G Compound _ _ is_upper is_digit); apply one'_sat. Qed.
Lemma designator_yes a c r ts : node G "designator" a c r ts -> name c /\ stops name_char r /\ ts = [T "designator" c []].
Proof.
  intros H. destruct (node_inv G quiet_isec _ _ _ _ _ H _ _ eq_refl) as [ts' [Y ->]].
  apply (yes_plus_one G Compound _ name_char) in Y; [|discriminate | apply one'_name]. destruct Y as [N [F [S ->]]]. repeat split; assumption.
Qed.
Lemma coord_part_yes a c r ts : node G "coord_part" a c r ts -> decimal c /\ stops is_digit r /\ ts = [T "coord_part" c [T "DECIMAL" c []]].
Proof.
  intros H. destruct (node_inv G quiet_isec _ _ _ _ _ H _ _ eq_refl) as [ts' [Y ->]].
  destruct (node_inv G quiet_isec _ _ _ _ _ Y _ _ eq_refl) as [ts'' [Y' ->]].
  apply decimal_yes in Y'. destruct Y' as [D [S ->]]. auto.
Qed.
Lemma gap_before_decimal c lat r : decimal lat -> gapped sptab c (lat ++ r) -> blanks c.
Proof.
  intros D GP. apply gapped_blanks in GP; [apply GP|]. destruct (decimal_hd lat r D) as [x [s' [-> H]]]. cbn [stops].
  intros E. apply negb_false_iff in E. unfold is_nl, is_digit in *. lia.
Qed.
Lemma decimal_sep f c lat r : (forall x, is_digit x = true -> f x = true) -> decimal lat -> stops f (c ++ lat ++ r) -> blanks c -> separated c lat.
Proof.
  intros FD D S B. split; [exact B|]. destruct c as [|x c]; [right | left; discriminate].
  destruct (decimal_hd lat r D) as [y [s' [E H]]]. cbn [app] in S. rewrite E in S. cbn [stops] in S.
  destruct H as [H|[-> [s'' ->]]]; [rewrite (FD y H) in S; discriminate|]. exists s''. reflexivity.
Qed.
Lemma coord_yes c r ts : node G "coord" NonAtomic c r ts ->
  exists lat b lng, c = lat ++ b ++ lng /\ decimal lat /\ separated b lng /\ decimal lng /\ stops is_digit r /\ ts = [coord_tree c lat lng].
Proof.
  intros H. destruct (node_inv G quiet_isec _ _ _ _ _ H _ _ eq_refl) as [ts' [Y ->]].
  then_inv Y a1 b1 u1 v1 Y1 Y. then_inv Y a2 b2 u2 v2 Y2 Y3. destruct Y2 as [-> Y2]. apply skip_yes in Y2.
  apply coord_part_yes in Y1. destruct Y1 as [D1 [S1 ->]]. apply coord_part_yes in Y3. destruct Y3 as [D3 [S3 ->]].
  eexists _, _, _. split; [reflexivity|]. split; [exact D1|]. rewrite <- !app_assoc in S1.
  split; [|auto]. eapply decimal_sep; [|exact D3|exact S1|]; [auto|]. eapply gap_before_decimal; eassumption.
Qed.
Lemma wpt_yes c r ts : node G "wpt" NonAtomic c r ts ->
  exists e cc, ts = [wpt_tree c cc e] /\ forall es, isec_file r es -> isec_file (c ++ r) (e :: es).
Proof.
  intros H. destruct (node_inv G quiet_isec _ _ _ _ _ H _ _ eq_refl) as [ts' [Y ->]].
  then_inv Y a1 b1 u1 v1 Yd Y. then_inv Y a2 b2 u2 v2 G1 Y. then_inv Y a3 b3 u3 v3 Yc Y. then_inv Y a4 b4 u4 v4 G3 Y. then_inv Y a5 b5 u5 v5 Y15 Y. then_inv Y a6 b6 u6 v6 G4 Ynl.
  destruct G1 as [-> G1]. apply skip_yes in G1. destruct G3 as [-> G3]. apply skip_yes in G3. destruct G4 as [-> G4]. apply skip_yes in G4.
  apply designator_yes in Yd. destruct Yd as [ND [SD ->]]. apply coord_yes in Yc. destruct Yc as [lat [b [lng [-> [Dlat [Sb [Dlng [SC ->]]]]]]]].
  cbn [yes str] in Y15. destruct Y15 as [-> ->]. apply nl_yes in Ynl. destruct Ynl as [-> [nl [c' [-> [NL FN]]]]].
  rename a1 into d, a2 into b1, a4 into b3, a6 into tail. cbn [app].
  exists (mkEntry d lat lng), (lat ++ b ++ lng). split; [reflexivity|]. intros es F. specialize (FN es F).
  rewrite <- !app_assoc in *. 
  assert (B3 : blanks b3 /\ b3 <> []).
  { apply gapped_blanks in G3; [|cbn; discriminate]. split; [apply G3|]. intros ->. cbn in SC. discriminate. }
  assert (B1 : blanks b1) by exact (gap_before_decimal _ _ _ Dlat G1).
  assert (E : entry_line (d ++ b1 ++ lat ++ b ++ lng ++ b3 ++ s2t "15" ++ tail) (mkEntry d lat lng)).
  { apply (entry_intro []); try assumption; try tauto; [constructor| |eapply gapped_void, G4].
    eapply decimal_sep; [|exact Dlat|exact SD|exact B1]. intros y Dy. unfold name_char. rewrite Dy. apply orb_true_r. }
  pose proof (file_entry _ nl _ _ _ E NL FN) as FE. rewrite <- !app_assoc in FE. exact FE.
Qed.

Lemma wpts_many_yes c r ts : reps (yes G NonAtomic (Then Skip (Call "wpt"))) (no G NonAtomic (Then Skip (Call "wpt"))) c r ts ->
  exists es, Forall2 (fun e t => exists c cc, t = wpt_tree c cc e) es ts /\ (isec_file r [] -> isec_file (c ++ r) es).
Proof.
  intros R. induction R as [r _|c1 c2 r t1 t2 H _ [es [F IH]]]; [exists []; split; [constructor | auto]|].
  then_inv H a1 b1 u1 v1 HS HW. destruct HS as [-> HS]. apply skip_yes in HS. apply wpt_yes in HW. destruct HW as [e [cc [-> HW]]].
  exists (e :: es). split; [constructor; [eauto | exact F]|]. intros FR. rewrite <- !app_assoc in *. apply gap_file; [exact HS|]. auto.
Qed.
Theorem wpts_yes t c r k ts : parse G "wpts" t = Ok c r k ts ->
  exists es ts', es <> [] /\ ts = [T "wpts" t (ts' ++ [T "EOI" [] []])] /\
    Forall2 (fun e t => exists c cc, t = wpt_tree c cc e) es ts' /\ isec_file t es.
Proof.
  intros E. apply parse_node in E. destruct E as [-> H]. destruct (node_inv G quiet_isec _ _ _ _ _ H _ _ eq_refl) as [ts0 [Y ->]].
  then_inv Y a1 b1 u1 v1 Ysoi Y. destruct Ysoi as [-> ->]. then_inv Y a2 b2 u2 v2 G1 Y. destruct G1 as [-> G1]. apply skip_yes in G1.
  then_inv Y a3 b3 u3 v3 Yn Y. then_inv Y a4 b4 u4 v4 G2 Y. destruct G2 as [-> G2]. apply skip_yes in G2. then_inv Y a5 b5 u5 v5 Yw Y. then_inv Y a6 b6 u6 v6 G3 Ye.
  destruct G3 as [-> G3]. apply skip_yes in G3. destruct Ye as [-> [-> ->]].
  then_inv Yw a7 b7 u7 v7 Y1 Yw. then_inv Yw a8 b8 u8 v8 G4 Yw. destruct G4 as [-> G4]. apply skip_yes in G4.
  apply wpt_yes in Y1. destruct Y1 as [e [cc [-> Y1]]].
  assert (NLX : u3 = [] /\ forall r es, isec_file r es -> r = a4 ++ (a7 ++ a8 ++ b8) ++ (a6 ++ []) ++ [] -> isec_file (a3 ++ r) es).
  { destruct Yn as [Yn|[-> [-> _]]]; [|split; [reflexivity | auto]]. cbn [yes] in Yn. apply nl_yes in Yn.
    destruct Yn as [-> [nl [c' [-> [NL Yn]]]]]. split; [reflexivity|]. intros r es F ->.
    rewrite <- !app_assoc in *. apply (file_void []); [apply void_blank; constructor | exact NL | apply Yn; exact F]. }
  destruct NLX as [-> NLX].
  assert (EOFF : isec_file a6 []) by (apply file_end; eapply gapped_void, G3).
  assert (W : exists es, Forall2 (fun e t => exists c cc, t = wpt_tree c cc e) es v8 /\ isec_file (b8 ++ a6) es).
  { destruct Yw as [Yw|[-> [-> _]]].
    - then_inv Yw a9 b9 u9 v9 Yw1 Yw2. apply wpt_yes in Yw1. destruct Yw1 as [e' [cc' [-> Yw1]]].
      apply wpts_many_yes in Yw2. destruct Yw2 as [es [F Yw2]]. exists (e' :: es). split; [constructor; [eauto | exact F]|].
      rewrite <- !app_assoc in *. cbn [app] in *. rewrite ?app_nil_r in *. apply Yw1, Yw2, EOFF.
    - exists []. split; [constructor | exact EOFF]. }
  destruct W as [es [F W]]. exists (e :: es), (wpt_tree a7 cc e :: v8). split; [discriminate|].
  cbn [app] in *. rewrite ?app_nil_r in *. split; [rewrite <- ?app_assoc; reflexivity|]. split; [constructor; [eauto | exact F]|].
  rewrite <- !app_assoc in *. apply gap_file; [exact G1|]. apply NLX; [|reflexivity]. apply gap_file; [exact G2|]. apply Y1. apply gap_file; [exact G4 | exact W].
Qed.

(** ** Reading: every file is accepted *)
Lemma one_name : one G Compound (ASCII_ALPHA_UPPER // ASCII_DIGIT) name_char.
Proof. apply (one_alt G Compound _ _ is_upper is_digit); apply one_sat. Qed.
Lemma designator_ok a d r : name d -> stops name_char r -> ok G a (Call "designator") d r [T "designator" d []].
Proof.
  intros [N F] S. apply (ok_call G a "designator" KCompound _ d r [] eq_refl).
  eapply ok_plus_one; [discriminate | apply one_name | assumption..].
Qed.
Lemma coord_part_ok a s r : decimal s -> stops is_digit r -> ok G a (Call "coord_part") s r [T "coord_part" s [T "DECIMAL" s []]].
Proof.
  intros D S. apply (ok_call G a "coord_part" KCompound _ s r [T "DECIMAL" s []] eq_refl).
  apply (ok_call G Compound "DECIMAL" KAtomic _ s r [] eq_refl). apply decimal_ok; assumption.
Qed.
Lemma not_comment c r : c <> 59%N -> c <> 47%N -> ~ comment_start (c :: r).
Proof. intros A B [r' [E|E]]; injection E as E _; congruence. Qed.
Lemma decimal_gapped b s r : blanks b -> decimal s -> gapped sptab b (s ++ r).
Proof.
  intros B D. destruct (decimal_hd s r D) as [c [s' [-> H]]]. apply blanks_gapped; [exact B| |].
  - cbn. unfold sptab, is_digit in *. lia.
  - apply not_comment; unfold is_digit in *; lia.
Qed.
Lemma sep_stops f b s r : separated b s -> decimal s -> (forall x, is_blank x = true -> f x = false) -> f 45%N = false -> stops f (b ++ s ++ r).
Proof.
  intros [B SP] D FB FM. destruct B as [|x b X _]; [|apply FB, X]. destruct SP as [SP|[s' ->]]; [contradiction SP; reflexivity | exact FM].
Qed.
Lemma coord_ok lat b lng r : decimal lat -> separated b lng -> decimal lng -> stops is_digit r ->
  ok G NonAtomic (Call "coord") (lat ++ b ++ lng) r [coord_tree (lat ++ b ++ lng) lat lng].
Proof.
  intros D1 SB D2 S. apply (ok_call G NonAtomic "coord" KNormal _ _ r _ eq_refl).
  apply (ok_then G NonAtomic _ _ lat (b ++ lng) r [_] [_]).
  - apply coord_part_ok; [exact D1|]. rewrite <- app_assoc. apply sep_stops; try assumption; [|reflexivity].
    intros x. unfold is_blank, is_digit. lia.
  - apply (ok_then G NonAtomic _ _ b lng r [] [_]); [|apply coord_part_ok; assumption]. apply skip_ok, decimal_gapped; [apply SB | assumption].
Qed.

Definition core (d b1 lat b2 lng b3 : text) : text := d ++ b1 ++ lat ++ b2 ++ lng ++ b3 ++ s2t "15".
(** at the end of the file or at the designator of an entry *)
Inductive at_entry : text -> list entry -> Prop :=
| at_end : at_entry [] []
| at_name d b1 lat b2 lng b3 tail nl r es :
    name d -> separated b1 lat -> decimal lat -> separated b2 lng -> decimal lng -> blanks b3 -> b3 <> [] -> void_line tail ->
    line_end nl -> ok G NonAtomic NEWLINE nl r [] -> isec_file r es ->
    at_entry (core d b1 lat b2 lng b3 ++ tail ++ nl ++ r) (mkEntry d lat lng :: es).

Lemma lf_file r es : isec_file (10%N :: r) es -> isec_file r es.
Proof.
  intros F. inversion F as [c V E|c nl r' es' V L F' E|c nl r' e es' V L F' E]; subst.
  - apply void_starts in V. discriminate V.
  - destruct c as [|x c].
    + destruct L; try discriminate E. injection E as ->. exact F'.
    + injection E as -> _. apply void_starts in V. discriminate V.
  - apply entry_starts in V. destruct V as [N V]. destruct c as [|x c]; [contradiction N; reflexivity|]. injection E as -> _. discriminate V.
Qed.
Lemma norm nl r es : line_end nl -> isec_file r es ->
  exists nl' r', nl ++ r = nl' ++ r' /\ line_end nl' /\ isec_file r' es /\ ok G NonAtomic NEWLINE nl' r' [].
Proof.
  intros L F. destruct L.
  - exists [10]%N, r. split; [reflexivity|]. split; [constructor|]. split; [exact F | apply ok_newline_lf].
  - exists [13; 10]%N, r. split; [reflexivity|]. split; [constructor|]. split; [exact F | apply ok_newline_crlf].
  - destruct r as [|c r].
    + exists [13]%N, []. split; [reflexivity|]. split; [constructor|]. split; [exact F | apply ok_newline_cr; discriminate].
    + destruct (N.eq_dec c 10) as [->|N].
      * exists [13; 10]%N, r. split; [reflexivity|]. split; [constructor|]. split; [apply lf_file, F | apply ok_newline_crlf].
      * exists [13]%N, (c :: r). split; [reflexivity|]. split; [constructor|]. split; [exact F|]. apply ok_newline_cr. intros r' E. injection E as -> _. contradiction N. reflexivity.
Qed.
Lemma name_hd d r : name d -> exists c r', d ++ r = c :: r' /\ name_char c = true.
Proof. intros [N F]. destruct F as [|x d X _]; [contradiction N; reflexivity|]. exists x, (d ++ r). auto. Qed.
Lemma name_gapped b d r : blanks b -> name d -> gapped sptab b (d ++ r).
Proof.
  intros B N. destruct (name_hd d r N) as [c [r' [-> H]]]. apply blanks_gapped; [exact B| |].
  - cbn. unfold sptab, name_char, is_upper, is_digit in *. lia.
  - apply not_comment; unfold name_char, is_upper, is_digit in *; lia.
Qed.
Lemma name_not_nl a d r : name d -> ko G a NEWLINE (d ++ r).
Proof.
  intros N. destruct (name_hd d r N) as [c [r' [-> H]]]. apply ko_newline. cbn. unfold name_char, is_upper, is_digit, is_nl in *. lia.
Qed.

(** the three kinds of first lines *)
Lemma file_cases t es : isec_file t es ->
  (void_line t /\ es = []) \/
  (exists c nl r, t = c ++ nl ++ r /\ void_line c /\ line_end nl /\ isec_file r es /\ ok G NonAtomic NEWLINE nl r []) \/
  (exists b r, t = b ++ r /\ blanks b /\ at_entry r es /\ r <> []).
Proof.
  intros [c V|c nl r es' V L F|c nl r e es' V L F].
  - auto.
  - right; left. destruct (norm nl r es' L F) as [nl' [r' [E [L' [F' O]]]]]. exists c, nl', r'. rewrite E. auto.
  - right; right. destruct (norm nl r es' L F) as [nl' [r' [E [L' [F' O]]]]]. rewrite E.
    destruct V as [b0 d b1 lat b2 lng b3 tail B0 ND S1 D1 S2 D2 B3 N3 V].
    exists b0, (core d b1 lat b2 lng b3 ++ tail ++ nl' ++ r'). unfold core. split; [rewrite <- !app_assoc; reflexivity|].
    split; [exact B0|]. split; [apply at_name; assumption|]. destruct ND as [ND _]. destruct d; [contradiction|discriminate].
Qed.
Lemma at_entry_gapped b r es : at_entry r es -> blanks b -> gapped sptab b r.
Proof.
  intros [|d b1 lat b2 lng b3 tail nl r' es' ND S1 D1 S2 D2 B3 N3 V L O F] B.
  - apply blanks_gapped; [exact B | exact I|]. intros [r' [E|E]]; discriminate.
  - unfold core. rewrite <- !app_assoc. apply name_gapped; assumption.
Qed.
Lemma at_entry_not_nl r es : at_entry r es -> ko G NonAtomic NEWLINE r.
Proof.
  intros [|d b1 lat b2 lng b3 tail nl r' es' ND S1 D1 S2 D2 B3 N3 V L O F].
  - apply ko_newline. exact I.
  - unfold core. rewrite <- !app_assoc. apply name_not_nl; assumption.
Qed.
Lemma skip_then_ko e g r : gapped sptab g r -> ko G NonAtomic e r -> ko G NonAtomic (Then Skip e) (g ++ r).
Proof. intros GP K. eapply ko_then2; [apply skip_ok, GP | exact K]. Qed.
Lemma skip_then_ok e g c r ts : gapped sptab g (c ++ r) -> ok G NonAtomic e c r ts -> ok G NonAtomic (Then Skip e) (g ++ c) r ts.
Proof. intros GP K. apply (ok_then G NonAtomic Skip e g c r [] ts); [apply skip_ok, GP | exact K]. Qed.
Lemma void_end_gapped c : void_line c -> gapped sptab c [].
Proof. intros V. apply void_gapped; [exact V | exact I]. Qed.

Lemma nls_ok n : forall t es, List.length t <= n -> isec_file t es -> exists c g r,
  t = c ++ g ++ r /\ ok G NonAtomic (Many (Then Skip NEWLINE)) c (g ++ r) [] /\ gapped sptab g r /\ at_entry r es.
Proof.
  induction n as [|n IH]; intros t es L F; destruct (file_cases t es F) as [[V ->]|[[c [nl [r [-> [V [LE [F' O]]]]]]]|[b [r [-> [B [A N]]]]]]].
  1, 4: exists [], t, []; rewrite app_nil_r; split; [reflexivity|]; split; [|split; [apply void_end_gapped, V | constructor]];
    apply ok_many_nil; pose proof (skip_then_ko NEWLINE t [] (void_end_gapped t V)) as K; rewrite app_nil_r in K; apply K, ko_newline; exact I.
  2, 4: exists [], b, r; split; [reflexivity|]; split; [|split; [eapply at_entry_gapped; eassumption | exact A]];
    apply ok_many_nil, skip_then_ko; [eapply at_entry_gapped; eassumption | eapply at_entry_not_nl, A].
  - exfalso. rewrite !app_length in L. destruct LE; cbn in L; lia.
  - destruct (IH r es) as [c2 [g [r2 [-> [O2 [G2 A2]]]]]]; [|exact F'|].
    { rewrite !app_length in *. destruct LE; cbn [List.length] in L; lia. }
    exists ((c ++ nl) ++ c2), g, r2. split; [rewrite <- !app_assoc; reflexivity|]. split; [|auto].
    apply (ok_many_cons G NonAtomic _ (c ++ nl) c2 _ [] []); [|exact O2].
    apply skip_then_ok; [|exact O]. apply void_gapped; [exact V | apply line_end_stops, LE].
Qed.
Lemma nl_ok nl t es : ok G NonAtomic NEWLINE nl t [] -> isec_file t es -> exists c g r,
  t = c ++ g ++ r /\ ok G NonAtomic (Call "NL") (nl ++ c) (g ++ r) [] /\ gapped sptab g r /\ at_entry r es.
Proof.
  intros O F.
  assert (C : forall c r, t = c ++ r -> ok G NonAtomic (Then Skip (Peg.Star NEWLINE)) c r [] -> ok G NonAtomic (Call "NL") (nl ++ c) r []).
  { intros c r -> OC. apply (ok_call G NonAtomic "NL" KSilent _ (nl ++ c) r [] eq_refl).
    apply (ok_then G NonAtomic NEWLINE _ nl c r [] []); assumption. }
  destruct (file_cases t es F) as [[V ->]|[[c [nl2 [r [-> [V [LE [F' O']]]]]]]|[b [r [-> [B [A N]]]]]]].
  - exists t, [], []. rewrite app_nil_r. split; [reflexivity|].
    split; [|split; [apply void_end_gapped, void_blank; constructor | constructor]].
    apply C; [rewrite app_nil_r; reflexivity|]. rewrite <- (app_nil_r t). apply skip_then_ok; [apply void_end_gapped, V|].
    apply ok_star_nil, ko_newline. exact I.
  - destruct (nls_ok _ r es (Nat.le_refl _) F') as [c2 [g [r2 [-> [O2 [G2 A2]]]]]].
    exists (c ++ nl2 ++ c2), g, r2. split; [rewrite <- !app_assoc; reflexivity|]. split; [|auto].
    apply C; [rewrite <- !app_assoc; reflexivity|]. apply skip_then_ok; [rewrite <- app_assoc; apply void_gapped; [exact V | apply line_end_stops, LE]|].
    apply ok_opt. apply (ok_then G NonAtomic NEWLINE _ nl2 c2 _ [] []); assumption.
  - exists b, [], r. split; [reflexivity|].
    split; [|split; [eapply at_entry_gapped; [exact A | constructor] | exact A]].
    apply C; [reflexivity|]. rewrite <- (app_nil_r b). apply skip_then_ok; [eapply at_entry_gapped; eassumption|].
    apply ok_star_nil. eapply at_entry_not_nl, A.
Qed.
Lemma wpt_ok r e es : at_entry r (e :: es) -> exists c cc g r',
  r = c ++ g ++ r' /\ ok G NonAtomic (Call "wpt") c (g ++ r') [wpt_tree c cc e] /\ gapped sptab g r' /\ at_entry r' es.
Proof.
  intros A. inversion A as [|d b1 lat b2 lng b3 tail nl r0 es' ND S1 D1 S2 D2 B3 N3 V L O F]; subst.
  destruct (nl_ok nl r0 es O F) as [c [g [r' [-> [ON [GP A']]]]]].
  exists (core d b1 lat b2 lng b3 ++ tail ++ nl ++ c), (lat ++ b2 ++ lng), g, r'. split; [rewrite <- !app_assoc; reflexivity|]. split; [|auto].
  apply (ok_call G NonAtomic "wpt" KNormal _ _ _ [T "designator" d []; coord_tree (lat ++ b2 ++ lng) lat lng] eq_refl).
  unfold core. rewrite <- !app_assoc.
  apply (ok_then G NonAtomic _ _ d (b1 ++ lat ++ b2 ++ lng ++ b3 ++ s2t "15" ++ tail ++ nl ++ c) _ [_] [_]).
  { apply designator_ok; [exact ND|]. rewrite <- app_assoc. rewrite <- app_assoc. apply sep_stops; try assumption; [|reflexivity].
    intros x. unfold is_blank, name_char, is_upper, is_digit. lia. }
  apply (ok_then G NonAtomic _ _ b1 (lat ++ b2 ++ lng ++ b3 ++ s2t "15" ++ tail ++ nl ++ c) _ [] [_]).
  { apply skip_ok. rewrite <- app_assoc. apply decimal_gapped; [apply S1 | exact D1]. }
  replace (lat ++ b2 ++ lng ++ b3 ++ s2t "15" ++ tail ++ nl ++ c) with ((lat ++ b2 ++ lng) ++ b3 ++ s2t "15" ++ tail ++ nl ++ c)
    by (rewrite <- !app_assoc; reflexivity).
  apply (ok_then G NonAtomic _ _ (lat ++ b2 ++ lng) (b3 ++ s2t "15" ++ tail ++ nl ++ c) _ [_] []).
  { apply coord_ok; try assumption. rewrite <- app_assoc. destruct B3 as [|x b3 X _]; [contradiction N3; reflexivity|].
    cbn. unfold is_blank, is_digit in *. lia. }
  apply (ok_then G NonAtomic _ _ b3 (s2t "15" ++ tail ++ nl ++ c) _ [] []).
  { apply skip_ok. apply blanks_gapped; [exact B3 | reflexivity|]. intros [r1 [E|E]]; discriminate. }
  apply (ok_then G NonAtomic _ _ (s2t "15") (tail ++ nl ++ c) _ [] []); [apply ok_str|].
  apply (ok_then G NonAtomic _ _ tail (nl ++ c) _ [] []); [|exact ON]. apply skip_ok. rewrite <- app_assoc.
  apply void_gapped; [exact V | apply line_end_stops, L].
Qed.
Lemma wpt_ko : ko G NonAtomic (Call "wpt") [].
Proof.
  eapply ko_call; [reflexivity|]. apply ko_seq1. eapply ko_call; [reflexivity|]. eapply ko_plus_one; [apply one_name | exact I].
Qed.
Definition wpt_trees := Forall2 (fun e t => exists c cc, t = wpt_tree c cc e).
Lemma wpts_many_ok es : forall g r, gapped sptab g r -> at_entry r es -> exists c g' ts,
  g ++ r = c ++ g' /\ ok G NonAtomic (Many (Then Skip (Call "wpt"))) c g' ts /\ gapped sptab g' [] /\ wpt_trees es ts.
Proof.
  induction es as [|e es IH]; intros g r GP A.
  - inversion A; subst. exists [], g, []. rewrite app_nil_r. split; [reflexivity|]. split; [|split; [exact GP | constructor]].
    apply ok_many_nil. rewrite <- (app_nil_r g). apply skip_then_ko; [exact GP | apply wpt_ko].
  - destruct (wpt_ok r e es A) as [c [cc [g2 [r2 [-> [O [G2 A2]]]]]]].
    destruct (IH g2 r2 G2 A2) as [c3 [g3 [ts [E [O3 [G3 W]]]]]].
    exists ((g ++ c) ++ c3), g3, (wpt_tree c cc e :: ts). rewrite <- app_assoc, E. split; [rewrite <- !app_assoc; reflexivity|].
    split; [|split; [exact G3 | constructor; eauto]].
    apply (ok_many_cons G NonAtomic _ (g ++ c) c3 g3 [_] ts); [|exact O3]. rewrite <- E. apply skip_then_ok; assumption.
Qed.
Lemma wpts_ok t es : isec_file t es -> es <> [] ->
  exists ts, wpt_trees es ts /\ parse G "wpts" t = Ok t [] [] [T "wpts" t (ts ++ [T "EOI" [] []])].
Proof.
  intros F NE.
  assert (H : exists g0 nl g1 r, t = g0 ++ nl ++ g1 ++ r /\ gapped sptab g0 (nl ++ g1 ++ r) /\ ok G NonAtomic (Opt (Call "NL")) nl (g1 ++ r) [] /\
    gapped sptab g1 r /\ at_entry r es).
  { destruct (file_cases t es F) as [[V ->]|[[c [nl2 [r [-> [V [LE [F' O']]]]]]]|[b [r [-> [B [A N]]]]]]]; [contradiction NE; reflexivity|..].
    - destruct (nl_ok nl2 r es O' F') as [c2 [g [r' [-> [ON [GP A']]]]]]. exists c, (nl2 ++ c2), g, r'. split; [rewrite <- !app_assoc; reflexivity|].
      split; [rewrite <- app_assoc; apply void_gapped; [exact V | apply line_end_stops, LE]|]. split; [apply ok_opt, ON | auto].
    - exists b, [], [], r. split; [reflexivity|]. split; [eapply at_entry_gapped; eassumption|].
      split; [|split; [eapply at_entry_gapped; [exact A | constructor] | exact A]].
      apply ok_opt_no. eapply ko_call; [reflexivity|]. apply ko_seq1. eapply at_entry_not_nl, A. }
  destruct H as [g0 [nl [g1 [r [-> [G0 [ON [G1 A]]]]]]]]. destruct es as [|e es]; [contradiction NE; reflexivity|].
  destruct (wpt_ok r e es A) as [c [cc [g2 [r2 [-> [O [G2 A2]]]]]]].
  assert (W : exists c3 g3 ts, g2 ++ r2 = c3 ++ g3 /\ ok G NonAtomic (Then Skip (Peg.Star (Call "wpt"))) c3 g3 ts /\ gapped sptab g3 [] /\ wpt_trees es ts).
  { destruct es as [|e' es].
    - inversion A2; subst. exists g2, [], []. split; [reflexivity|]. split; [|split; [apply void_end_gapped, void_blank; constructor | constructor]].
      rewrite <- (app_nil_r g2). apply skip_then_ok; [exact G2 | apply ok_star_nil, wpt_ko].
    - destruct (wpt_ok r2 e' es A2) as [c' [cc' [g3 [r3 [-> [O' [G3 A3]]]]]]].
      destruct (wpts_many_ok es g3 r3 G3 A3) as [c4 [g4 [ts [E [O4 [G4 W]]]]]].
      exists (g2 ++ c' ++ c4), g4, (wpt_tree c' cc' e' :: ts). rewrite E. split; [rewrite <- !app_assoc; reflexivity|].
      split; [|split; [exact G4 | constructor; eauto]].
      apply skip_then_ok; [rewrite <- app_assoc, <- E; exact G2|]. apply ok_opt.
      apply (ok_then G NonAtomic _ _ c' c4 g4 [_] ts); [rewrite <- E; exact O' | exact O4]. }
  destruct W as [c3 [g3 [ts [E [O3 [G3 WT]]]]]]. exists (wpt_tree c cc e :: ts). split; [constructor; eauto|].
  apply parse_matches; [vm_compute; reflexivity|].
  set (t := g0 ++ nl ++ g1 ++ c ++ g2 ++ r2) in *.
  apply (m_call G NonAtomic "wpts" KNormal _ true t [] (Some (t, [], [], (wpt_tree c cc e :: ts) ++ [T "EOI" [] []])) eq_refl).
  rewrite <- (app_nil_r t) at 1. apply ok_soi_seq. subst t. rewrite E.
  apply skip_then_ok. { rewrite <- E, app_nil_r. exact G0. }
  apply (ok_then G NonAtomic _ _ nl _ _ [] _). { rewrite <- E, app_nil_r. exact ON. }
  apply skip_then_ok. { rewrite <- E, app_nil_r. exact G1. }
  replace (c ++ c3 ++ g3) with ((c ++ c3) ++ g3) by (rewrite <- app_assoc; reflexivity).
  apply (ok_then G NonAtomic _ _ (c ++ c3) g3 [] (wpt_tree c cc e :: ts) [_]).
  - apply (ok_then G NonAtomic _ _ c c3 _ [_] ts); [rewrite app_nil_r, <- E; exact O | rewrite app_nil_r; exact O3].
  - rewrite <- (app_nil_r g3). apply skip_then_ok; [exact G3 | apply ok_eoi; discriminate].
Qed.

(** ** The map *)
Definition fix_pairs (es : list entry) (l : list (text * fix_)) : Prop :=
  Forall2 (fun e x => fst x = e_des e /\ entry_fix e (snd x)) es l.
Lemma isec_pair_wpt acc c cc e : decimal (e_lat e) -> decimal (e_lng e) ->
  exists f, entry_fix e f /\ isec_pair acc (wpt_tree c cc e) = Ret (mpush (e_des e) f acc).
Proof.
  intros D1 D2. destruct (parse_decimal _ D1) as [y E1]. destruct (parse_decimal _ D2) as [x E2].
  exists (mkFix (e_des e) (x, y)). split; [unfold entry_fix; cbn [f_des f_pos py px fst snd]; auto|].
  unfold isec_pair. change (is_rule (wpt_tree c cc e) "wpt") with true. unfold wpt_tree, coord_tree, parse_coord. walk. rewrite E1, E2. reflexivity.
Qed.
Lemma fold_wpts es : forall ts acc, Forall (fun e => decimal (e_lat e) /\ decimal (e_lng e)) es -> wpt_trees es ts ->
  exists l, fix_pairs es l /\ ofold isec_pair (ts ++ [T "EOI" [] []]) acc = Ret (mpush_all l acc).
Proof.
  induction es as [|e es IH]; intros ts acc F W; inversion W as [|? t ? ts' [c [cc ->]] W']; subst.
  - exists []. split; [constructor | reflexivity].
  - inversion F as [|? ? [D1 D2] F']; subst. destruct (isec_pair_wpt acc c cc e D1 D2) as [f [EF E]].
    destruct (IH ts' (mpush (e_des e) f acc) F' W') as [l [FP EL]].
    exists ((e_des e, f) :: l). split; [constructor; [auto | exact FP]|]. cbn [app ofold]. rewrite E. cbn [obind]. exact EL.
Qed.
Lemma file_decimals t es : isec_file t es -> Forall (fun e => name (e_des e) /\ decimal (e_lat e) /\ decimal (e_lng e)) es.
Proof. induction 1 as [|c nl r es _ _ _ IH|c nl r e es V _ _ IH]; [constructor | exact IH | constructor; [|exact IH]]. destruct V; auto. Qed.
Lemma isec_reads t es : isec_file t es -> es <> [] -> exists l, fix_pairs es l /\ parse_isec_txt t = Ret (mpush_all l []).
Proof.
  intros F NE. destruct (wpts_ok t es F NE) as [ts [W E]]. unfold parse_isec_txt, top, pairs. rewrite E. cbn [obind next kids_of].
  apply fold_wpts; [|exact W]. eapply Forall_impl; [|apply (file_decimals t es F)]. cbn beta. tauto.
Qed.
Lemma isec_total t : (exists es l, es <> [] /\ isec_file t es /\ fix_pairs es l /\ parse_isec_txt t = Ret (mpush_all l [])) \/
  (parse_isec_txt t = Err /\ forall es, isec_file t es -> es = []).
Proof.
  assert (C : checks G "wpts" = true) by (vm_compute; reflexivity).
  destruct (checks_returns G "wpts" C t) as [[c [r [k [ts E]]]]|E].
  - left. destruct (wpts_yes t c r k ts E) as [es [ts' [NE [_ [_ F]]]]]. destruct (isec_reads t es F NE) as [l [FP EL]]. exists es, l. auto.
  - right. split; [unfold parse_isec_txt, top, pairs; rewrite E; reflexivity|]. intros es F.
    destruct es as [|e es]; [reflexivity|]. destruct (wpts_ok t (e :: es) F ltac:(discriminate)) as [ts [_ E']]. congruence.
Qed.
Lemma fix_pairs_values es l d : fix_pairs es l -> Forall2 entry_fix (filter (named d) es) (values_of d l).
Proof.
  intros F. unfold values_of. induction F as [|e [k f] es l [E EF] F IH]; [constructor|]. cbn [fst snd] in *. subst k.
  cbn [filter map fst]. unfold named at 1. destruct (eqb (e_des e) d) eqn:E.
  - rewrite eqb_true in E. subst d. rewrite eqb_refl. cbn [map snd]. constructor; assumption.
  - rewrite eqb_false in E. replace (eqb d (e_des e)) with false; [exact IH|]. symmetry. apply eqb_false. auto.
Qed.
Lemma isec_unique t es es' : isec_file t es -> isec_file t es' -> es <> [] -> es' <> [] -> es' = es.
Proof.
  intros F F' NE NE'. destruct (wpts_ok t es F NE) as [ts [W E]]. destruct (wpts_ok t es' F' NE') as [ts' [W' E']].
  rewrite E in E'. injection E' as E'. apply app_inj_tail in E'. destruct E' as [<- _]. clear - W W'.
  revert es' W'. induction W as [|e x es ts [c [cc ->]] W IH]; intros es' W'; inversion W' as [|e' ? ? ? [c' [cc' X]] W'']; subst; [reflexivity|].
  f_equal; [|apply IH; assumption]. unfold wpt_tree, coord_tree in X. injection X as X1 X2 X3 X4 X5. destruct e, e'; cbn in *; congruence.
Qed.
