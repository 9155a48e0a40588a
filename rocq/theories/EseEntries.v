(** .ese files that are written line by line are read (C78): the entries of the sections. *)
From Coq Require Import ZifyBool ZifyN ZifyNat.
From Verif Require Import Base Unicode Num Float FloatParse Numerals Dms Sectors Constraints Peg Grammars SpecPeg PegProofs PegLang PegForward PegSkip Trees
  SpecText TextProofs SpecFields FileForward EseParse SpecEseText EseText.
Local Open Scope string_scope.
Local Open Scope list_scope.
Notation CT := (&"colon_delimited_text").
Notation lines_to := (lines_to G).
Notation firmer := (firmer G).

Ltac uncons := repeat match goal with H : cons_to _ _ _ |- _ => destruct H as [? [-> H]] end.
Ltac clash := let E := fresh in intros ? E; cbn in E; discriminate E.
Ltac other := (eapply ko_call; [reflexivity|]); apply ko_seq1, ko_str; clash.

Section At.
Variable nx : text.
Notation reads := (reads_at G nx (skipped G)).

(** ** Lists of fields *)
Lemma listed_bound l : bound (listed l).
Proof. rewrite <- (app_nil_r (listed l)). apply bound_listed, bound_nil. Qed.
Section Fields.
  Variable x : expr.
  Variable tk : text -> tree.
  Variable good : text -> Prop.
  Hypothesis read : forall w l R N t, good w -> bound l -> line_rest R N t -> okt NonAtomic x (w ++ l ++ R) (l ++ R) [tk w].
  Hypothesis open : forall w l, good w -> opens G l -> opens G (w ++ l).
  Lemma field_here w l R N t : good w -> l <> [] -> line_rest R N t -> okt NonAtomic (str ":" ~~ x) (listed (w :: l) ++ R) (listed l ++ R) [tk w].
  Proof.
    intros W NE L. rewrite listed_cons, <- !app_assoc. apply (okt_seq0 G (str ":") x _ (w ++ listed l ++ R) _ [] [tk w]).
    - apply okt_str.
    - assert (O : opens G (w ++ listed l)) by (apply open; [exact W | apply bound_opens, listed_bound]).
      rewrite app_assoc. destruct (w ++ listed l) as [|c v] eqn:E; [|apply opens_firm, O]. apply app_eq_nil in E. destruct E as [_ E]. destruct l; [congruence | discriminate E].
    - eapply read; [exact W | apply listed_bound | exact L].
  Qed.
  Lemma field_last w : good w -> reads (str ":" ~~ x) (listed [w]) (eq [tk w]).
  Proof.
    intros W. rewrite listed_cons. change (listed []) with (@nil BinNums.N). apply (colon_seq nx).
    - rewrite app_nil_r. rewrite <- (app_nil_r w). apply open; [exact W | exact I].
    - rewrite app_nil_r. apply reads_tok. intros R N t L. apply (read w [] R N t W bound_nil L).
  Qed.
  Lemma fields_run l R N : Forall good l -> l <> [] -> line_rest R N nx -> FileForward.run G (str ":" ~~ x) (listed l ++ R) N (map tk l).
  Proof.
    intros F NE L. induction F as [|w l W F IH]; [congruence|]. destruct l as [|w2 l].
    - destruct (field_last w W R N L) as [v [ts [O [S <-]]]]. change (map tk [w]) with ([tk w] ++ []). eapply run_cons; [exact O | exact S|].
      apply run_nil. eapply colon_ko, (rest_here G), L.
    - change (map tk (w :: w2 :: l)) with ([tk w] ++ map tk (w2 :: l)). eapply run_cons; [eapply field_here; [exact W | discriminate | exact L] | | apply IH; discriminate].
      apply (skip_none G). rewrite listed_cons. rewrite <- !app_assoc. apply firm_char; [reflexivity | discriminate | discriminate].
  Qed.
  Lemma fields_ok w l : Forall good (w :: l) -> reads (Plus (str ":" ~~ x)) (listed (w :: l)) (eq (map tk (w :: l))).
  Proof.
    intros F R N L. inversion F as [|? ? W F']; subst. destruct l as [|w2 l].
    - destruct (field_last w W R N L) as [u [ts [O [S <-]]]].
      destruct (run_plus G (str ":" ~~ x) _ u N N [tk w] [] O S) as [v [O' S']]; [apply run_nil; eapply colon_ko, (rest_here G), L | apply (skip_none G); eapply (rest_firm G), L|].
      exists v, [tk w]. auto.
    - destruct (run_plus G (str ":" ~~ x) (listed (w :: w2 :: l) ++ R) (listed (w2 :: l) ++ R) (listed (w2 :: l) ++ R) N [tk w] (map tk (w2 :: l))) as [v [O S]].
      + eapply field_here; [exact W | discriminate | exact L].
      + apply (skip_none G). rewrite listed_cons, <- !app_assoc. apply firm_char; [reflexivity | discriminate | discriminate].
      + apply fields_run; [exact F' | discriminate | exact L].
      + apply (skip_none G). eapply (rest_firm G), L.
      + exists v, (map tk (w :: w2 :: l)). auto.
  Qed.
End Fields.
Lemma words_fields w l : Forall words (w :: l) -> reads (Plus (str ":" ~~ CT)) (listed (w :: l)) (eq (map ct (w :: l))).
Proof.
  apply (fields_ok CT ct words); [|intros; apply words_opens; assumption].
  intros v k R N t V B L. eapply ct_ok; [apply V | exact B | exact L].
Qed.
Lemma code_ok w l R N t : code w -> bound l -> line_rest R N t -> okt NonAtomic &"designator" (w ++ l ++ R) (l ++ R) [dg w].
Proof. intros W B L. apply code_tok; [exact W|]. eapply bound_stops; [exact B | exact L | apply code_stop]. Qed.
Lemma code_fields w l : Forall code (w :: l) -> reads (Plus (str ":" ~~ &"designator")) (listed (w :: l)) (eq (map dg (w :: l))).
Proof. apply (fields_ok &"designator" dg code); [apply code_ok | intros; apply code_opens; assumption]. Qed.

(** ** Fields that may be an asterisk *)
Definition star : tree := T "wildcard" (s2t "*") [].
Definition any (tk : text -> tree) (o : option text) : tree := match o with Some w => tk w | None => star end.
Lemma any_ok n x tk o l R N t : get n G = Some (KSilent, &"wildcard" // x) -> body_atom n KSilent NonAtomic = NonAtomic ->
  (forall w, o = Some w -> okt NonAtomic x (w ++ l ++ R) (l ++ R) [tk w] /\ forall v, w <> s2t "*" ++ v) -> bound l -> line_rest R N t ->
  okt NonAtomic (Call n) (any_or o ++ l ++ R) (l ++ R) [any tk o].
Proof.
  intros E B H BL L. eapply okt_silent; [exact E | exact B|]. destruct o as [w|].
  - destruct (H w eq_refl) as [O NS]. apply okt_alt2; [|exact O]. eapply ko_call; [reflexivity|]. apply ko_str. intros r'. cbn [any_or].
    destruct w as [|c w].
    + cbn [app]. destruct BL as [-> |[l' ->]]; [|discriminate]. cbn [app]. destruct (rest_hd G R N t L) as [c [R' [-> C]]]. cbn. intros X. injection X as -> _. destruct C; discriminate.
    + cbn. intros X. injection X as -> _. exact (NS w eq_refl).
  - apply okt_alt1. apply okt_ok. apply (ok_call G NonAtomic "wildcard" KNormal _ (s2t "*") _ [] eq_refl). apply ok_str.
Qed.
Lemma any_words n o l R N t : get n G = Some (KSilent, &"wildcard" // CT) -> body_atom n KSilent NonAtomic = NonAtomic -> opt_words o -> bound l -> line_rest R N t ->
  okt NonAtomic (Call n) (any_or o ++ l ++ R) (l ++ R) [any ct o].
Proof. intros E B W BL L. eapply any_ok; try eassumption. intros w ->. destruct (W w eq_refl) as [[F _] S]. split; [|exact S]. eapply ct_ok; eassumption. Qed.
Lemma code_plain w : code w -> forall v, w <> s2t "*" ++ v.
Proof. intros [_ F] v ->. inversion F; discriminate. Qed.
Lemma any_code n o l R N t : get n G = Some (KSilent, &"wildcard" // &"designator") -> body_atom n KSilent NonAtomic = NonAtomic -> opt_code o -> bound l -> line_rest R N t ->
  okt NonAtomic (Call n) (any_or o ++ l ++ R) (l ++ R) [any dg o].
Proof.
  intros E B W BL L. eapply any_ok; try eassumption. intros w ->. pose proof (W w eq_refl) as C. split; [|apply code_plain, C]. eapply code_ok; eassumption.
Qed.
Lemma whole_plain w : whole w -> forall v, w <> s2t "*" ++ v.
Proof.
  intros [sg [u [-> [[->|[->| ->]] [NE F]]]]] v E; try discriminate E. cbn [app] in E. destruct u as [|c u]; [congruence|]. inversion F as [|? ? D _]; subst. injection E as -> _. discriminate D.
Qed.
Definition opt_whole (o : option text) : Prop := forall w, o = Some w -> whole w.
Lemma any_whole n o l R N t : get n G = Some (KSilent, &"wildcard" // &"integer") -> body_atom n KSilent NonAtomic = NonAtomic -> opt_whole o -> bound l -> line_rest R N t ->
  okt NonAtomic (Call n) (any_or o ++ l ++ R) (l ++ R) [any it o].
Proof.
  intros E B W BL L. eapply any_ok; try eassumption. intros w ->. pose proof (W w eq_refl) as C. split; [|apply whole_plain, C]. eapply int_ok; eassumption.
Qed.
Lemma any_opens o l : (forall w, o = Some w -> opens G (w ++ l)) -> opens G (any_or o ++ l).
Proof. destruct o as [w|]; intros H; [apply H; reflexivity | apply (opening_plain G); [reflexivity | discriminate | discriminate]]. Qed.

(** ** Lines *)
Lemma keyed_colon k w l : keyed k (w :: l) = s2t k ++ colon ++ w ++ listed l.
Proof. unfold keyed. rewrite listed_cons. reflexivity. Qed.
Lemma keyed_text k kc w l : s2t k ++ colon = s2t kc -> keyed k (w :: l) = s2t kc ++ w ++ listed l.
Proof. intros E. rewrite keyed_colon, app_assoc, E. reflexivity. Qed.

Definition item_tree (i : border_item) (tr : tree) : Prop :=
  match i with Display _ _ _ => is_rule tr "display" = true | Corner c => tr = place_tree c end.
Lemma display_line a b c : good_item (Display a b c) -> reads &"display" (border_text (Display a b c)) (fun ts => exists tr, ts = [tr] /\ is_rule tr "display" = true).
Proof.
  intros [A [B C]]. eapply reads_call; [reflexivity | reflexivity | | intros s ts _; eexists; split; [reflexivity | reflexivity]].
  cbn [border_text]. rewrite (keyed_text "DISPLAY" "DISPLAY:") by reflexivity. rewrite !listed_cons. change (listed []) with (@nil BinNums.N). rewrite app_nil_r.
  apply reads_str; [apply words_opens; [exact A | apply colon_opens]|].
  apply ct_seq; [exact A | apply bound_colon|]. apply colon_seq; [apply words_opens; [exact B | apply colon_opens]|].
  apply ct_seq; [exact B | apply bound_colon|]. apply colon_seq; [rewrite <- (app_nil_r c); apply words_opens; [exact C | exact I]|].
  apply ct_end, C.
Qed.
Lemma coord_line c p : reads_place c p -> reads &"coord" (border_text (Corner c)) (fun ts => exists tr, ts = [tr] /\ tr = place_tree c).
Proof.
  intros P. eapply reads_silent; [reflexivity | reflexivity|]. cbn [border_text]. rewrite (keyed_text "COORD" "COORD:") by reflexivity.
  change (listed []) with (@nil BinNums.N). rewrite app_nil_r. apply reads_str; [rewrite <- (app_nil_r (place_text c)); eapply place_opens, P|].
  eapply reads_mono; [apply (reads_tok G nx &"coordinate" _ [place_tree c])|].
  - intros R N t L. eapply place_ok; [exact P|]. apply (bound_stops number_stop [] R N t); [apply bound_nil | exact L | apply num_stop].
  - intros ts <-. eexists. split; reflexivity.
Qed.
Lemma item_line i : good_item i -> reads (&"display" // &"coord") (border_text i) (fun ts => exists tr, ts = [tr] /\ item_tree i tr).
Proof.
  intros H. destruct i as [a b c|c].
  - apply reads_alt1. apply display_line, H.
  - destruct H as [p P]. apply reads_alt2; [|eapply coord_line, P]. intros R N L. cbn [border_text]. rewrite keyed_colon. other.
Qed.
Definition sub_of (d : detail) : subsetting :=
  match d with
  | Owner w l => SOwner (w :: l) | AltOwner n w l => SAltOwner n (w :: l) | Border w l => SBorder (w :: l) | Guest _ _ _ => SGuest
  | Active a b => SActive a b | DepApt w l => SDep (w :: l) | ArrApt w l => SArr (w :: l)
  end.
Lemma texts_ct l : map text_of (map ct l) = l.
Proof. induction l as [|w l IH]; [reflexivity|]. cbn [map]. rewrite IH. reflexivity. Qed.
Lemma texts_dg l : map text_of (map dg l) = l.
Proof. induction l as [|w l IH]; [reflexivity|]. cbn [map]. rewrite IH. reflexivity. Qed.
Lemma detail_line d : good_detail d -> reads &"sector_subsettings" (detail_text d) (fun ts => exists tr, ts = [tr] /\ parse_subsetting tr = Ret (sub_of d)).
Proof.
  intros H. eapply reads_silent; [reflexivity | reflexivity|]. destruct d as [w l|n w l|w l|s a b|a b|w l|w l]; cbn [detail_text good_detail] in *.
  - apply reads_alt1. eapply reads_call; [reflexivity | reflexivity | apply reads_str; [rewrite listed_cons; apply colon_opens | apply words_fields, H]|].
    intros c ts <-. eexists. split; [reflexivity|]. unfold parse_subsetting. cbn. rewrite texts_ct. reflexivity.
  - apply reads_alt2; [intros R N L; rewrite keyed_colon; other|]. apply reads_alt1. rewrite (keyed_text "ALTOWNER" "ALTOWNER:") by reflexivity.
    inversion H as [|? ? HN HL]; subst. eapply reads_call; [reflexivity | reflexivity | apply reads_str; [apply words_opens; [exact HN | rewrite listed_cons; apply colon_opens]|]|].
    + apply ct_seq; [exact HN | apply listed_bound | apply words_fields, HL].
    + intros c ts X. uncons. subst. eexists. split; [reflexivity|]. unfold parse_subsetting. cbn. rewrite texts_ct. reflexivity.
  - do 2 (apply reads_alt2; [intros R N L; rewrite keyed_colon; other|]). apply reads_alt1.
    eapply reads_call; [reflexivity | reflexivity | apply reads_str; [rewrite listed_cons; apply colon_opens | apply words_fields, H]|].
    intros c ts <-. eexists. split; [reflexivity|]. unfold parse_subsetting. cbn. rewrite texts_ct. reflexivity.
  - do 3 (apply reads_alt2; [intros R N L; rewrite keyed_colon; other|]). apply reads_alt1. destruct H as [S [A B]].
    rewrite keyed_colon, !listed_cons. change (listed []) with (@nil BinNums.N). rewrite app_nil_r.
    eapply reads_call; [reflexivity | reflexivity | apply reads_str; [apply colon_opens|]|].
    + apply colon_seq; [apply words_opens; [exact S | apply colon_opens]|].
      apply reads_seq; [intros R N t L; eapply okt_silent; [reflexivity | reflexivity | eapply ct_ok; [apply S | apply bound_colon | exact L]] | apply colon_opens|].
      apply colon_seq; [apply any_opens; intros v E; apply code_opens, A, E|].
      apply reads_seq; [intros R N t L; eapply any_code; [reflexivity | reflexivity | exact A | apply bound_colon | exact L] | apply colon_opens|].
      apply colon_seq; [rewrite <- (app_nil_r (any_or b)); apply any_opens; intros v E; apply code_opens, B, E|].
      apply reads_tok. intros R N t L. apply (any_code "ades" b [] R N t); [reflexivity | reflexivity | exact B | apply bound_nil | exact L].
    + intros c ts _. eexists. split; [reflexivity|]. reflexivity.
  - do 4 (apply reads_alt2; [intros R N L; rewrite keyed_colon; other|]). apply reads_alt1. destruct H as [A B].
    rewrite (keyed_text "ACTIVE" "ACTIVE:") by reflexivity. rewrite listed_cons. change (listed []) with (@nil BinNums.N). rewrite app_nil_r.
    eapply reads_call; [reflexivity | reflexivity | apply reads_str; [apply code_opens, A|]|].
    + apply code_seq; [exact A | apply bound_colon|]. apply colon_seq; [rewrite <- (app_nil_r b); apply code_opens, B | apply code_end, B].
    + intros c ts X. uncons. subst. eexists. split; [reflexivity|]. reflexivity.
  - do 5 (apply reads_alt2; [intros R N L; rewrite keyed_colon; other|]). apply reads_alt1.
    eapply reads_call; [reflexivity | reflexivity | apply reads_str; [rewrite listed_cons; apply colon_opens | apply code_fields, H]|].
    intros c ts <-. eexists. split; [reflexivity|]. unfold parse_subsetting. cbn. rewrite texts_dg. reflexivity.
  - do 6 (apply reads_alt2; [intros R N L; rewrite keyed_colon; other|]).
    eapply reads_call; [reflexivity | reflexivity | apply reads_str; [rewrite listed_cons; apply colon_opens | apply code_fields, H]|].
    intros c ts <-. eexists. split; [reflexivity|]. unfold parse_subsetting. cbn. rewrite texts_dg. reflexivity.
Qed.

(** ** Coordination points *)
Definition cop_trees (c : cop) : list tree :=
  [any ct (k_prev c); any dg (k_dep c); any ct (k_fix c); any ct (k_next c); any dg (k_arr c); ct (k_exit c); ct (k_entry c);
   any it (k_climb c); any it (k_descent c); ct (k_desc c)].
Lemma opt_words_opens o l : opt_words o -> opens G l -> opens G (any_or o ++ l).
Proof. intros W O. apply any_opens. intros w E. apply words_opens; [apply (W w E) | exact O]. Qed.
Lemma opt_code_opens o l : opt_code o -> opens G (any_or o ++ l).
Proof. intros W. apply any_opens. intros w E. apply code_opens, (W w E). Qed.
Lemma opt_whole_opens o l : opt_whole o -> opens G (any_or o ++ l).
Proof. intros W. apply any_opens. intros w E. apply whole_opens, (W w E). Qed.
Lemma cop_body c : good_cop c -> opt_whole (k_climb c) -> opt_whole (k_descent c) ->
  reads_at G nx (before G nx) (&"prev" ~~ str ":" ~~ &"dep_rwy" ~~ str ":" ~~ &"cop_def" ~~ str ":" ~~ &"after" ~~ str ":" ~~ &"arr_rwy" ~~ str ":" ~~ &"sctx" ~~ str ":"
     ~~ &"sctn" ~~ str ":" ~~ &"alt_clb" ~~ str ":" ~~ &"alt_des" ~~ str ":" ~~ &"cop_description" ~~ &"NL")
  (any_or (k_prev c) ++ listed [any_or (k_dep c); any_or (k_fix c); any_or (k_next c); any_or (k_arr c); k_exit c; k_entry c; any_or (k_climb c); any_or (k_descent c); k_desc c])
  (eq (cop_trees c)).
Proof.
  intros [P [D [F [A [R [X [E W]]]]]]] C1 C2. rewrite !listed_cons. change (listed []) with (@nil BinNums.N). rewrite app_nil_r.
  eapply reads_mono.
  - apply reads_seq; [intros R' N t L; eapply any_words; [reflexivity | reflexivity | exact P | apply bound_colon | exact L] | apply colon_opens|].
    apply colon_seq; [apply opt_code_opens, D|].
    apply reads_seq; [intros R' N t L; eapply any_code; [reflexivity | reflexivity | exact D | apply bound_colon | exact L] | apply colon_opens|].
    apply colon_seq; [apply opt_words_opens; [exact F | apply colon_opens]|].
    apply reads_seq; [intros R' N t L; eapply any_words; [reflexivity | reflexivity | exact F | apply bound_colon | exact L] | apply colon_opens|].
    apply colon_seq; [apply opt_words_opens; [exact A | apply colon_opens]|].
    apply reads_seq; [intros R' N t L; eapply any_words; [reflexivity | reflexivity | exact A | apply bound_colon | exact L] | apply colon_opens|].
    apply colon_seq; [apply opt_code_opens, R|].
    apply reads_seq; [intros R' N t L; eapply any_code; [reflexivity | reflexivity | exact R | apply bound_colon | exact L] | apply colon_opens|].
    apply colon_seq; [apply words_opens; [exact X | apply colon_opens]|].
    apply reads_seq; [intros R' N t L; eapply okt_silent; [reflexivity | reflexivity | eapply ct_ok; [apply X | apply bound_colon | exact L]] | apply colon_opens|].
    apply colon_seq; [apply words_opens; [exact E | apply colon_opens]|].
    apply reads_seq; [intros R' N t L; eapply okt_silent; [reflexivity | reflexivity | eapply ct_ok; [apply E | apply bound_colon | exact L]] | apply colon_opens|].
    apply colon_seq; [apply opt_whole_opens, C1|].
    apply reads_seq; [intros R' N t L; eapply any_whole; [reflexivity | reflexivity | exact C1 | apply bound_colon | exact L] | apply colon_opens|].
    apply colon_seq; [apply opt_whole_opens, C2|].
    apply reads_seq; [intros R' N t L; eapply any_whole; [reflexivity | reflexivity | exact C2 | apply bound_colon | exact L] | apply colon_opens|].
    apply colon_seq; [rewrite <- (app_nil_r (k_desc c)); apply words_opens; [exact W | exact I]|].
    apply FileForward.reads_line. apply reads_tok. intros R' N t L. eapply okt_silent; [reflexivity | reflexivity|]. apply (ct_ok (k_desc c) [] R' N t); [apply W | apply bound_nil | exact L].
  - intros ts H. uncons. subst. reflexivity.
Qed.
Lemma level_whole o n : opt_level o n -> opt_whole o.
Proof. intros H w ->. destruct n; [apply H | contradiction]. Qed.
Lemma wild_words o : wildcard_string (any ct o) = Ret o.
Proof. destruct o; reflexivity. Qed.
Lemma wild_code o : wildcard_string (any dg o) = Ret o.
Proof. destruct o; reflexivity. Qed.
Lemma wild_level o n : opt_level o n -> wildcard_u32 (any it o) = Ret n.
Proof. destruct o as [w|], n as [n|]; cbn [opt_level]; try contradiction; [|reflexivity]. intros [_ E]. unfold wildcard_u32. cbn. rewrite E. reflexivity. Qed.
Lemma cop_value c n s x : reads_cop (Copx false c) [x] -> parse_cop (T n s (cop_trees c)) = Ret x.
Proof.
  intros [y [E [E1 [E2 [E3 [E4 [E5 [E6 [E7 [L1 [L2 [E8 E9]]]]]]]]]]]]. injection E as <-.
  unfold parse_cop, cop_trees. cbn [kids_of next obind text_of ct]. rewrite !wild_words, !wild_code, (wild_level _ _ L1). cbn [obind]. rewrite (wild_level _ _ L2). cbn [obind].
  destruct x. cbn in *. subst. reflexivity.
Qed.
End At.

(** ** Entries of the airspace section *)
Definition fresh (t : text) : Prop :=
  t = [] \/ exists k r, t = s2t k ++ r /\ In k ["["; "SECTORLINE:"; "CIRCLE_SECTORLINE:"; "DISPLAY_SECTORLINE:"; "SECTOR:"; "COPX:"; "FIR_COPX:"; "MSAW:"].
Ltac freshes F := let k := fresh "k" in let r := fresh "r" in let I := fresh "I" in
  destruct F as [-> |[k [r [-> I]]]]; [|cbn [In] in I; repeat (destruct I as [<-|I]); [..|contradiction]].
Lemma fresh_items t y : fresh t -> ko G NonAtomic ((&"display" // &"coord") ~~ y) t.
Proof. intros F. freshes F; apply ko_seq1, ko_alt; other. Qed.
Lemma fresh_display t y : fresh t -> ko G NonAtomic (&"display" ~~ y) t.
Proof. intros F. freshes F; apply ko_seq1; other. Qed.
Lemma fresh_coord t y : fresh t -> ko G NonAtomic (&"coord" ~~ y) t.
Proof. intros F. freshes F; apply ko_seq1; other. Qed.
Lemma fresh_details t y : fresh t -> ko G NonAtomic (&"sector_subsettings" ~~ y) t.
Proof. intros F. freshes F; apply ko_seq1; (eapply ko_call; [reflexivity|]); repeat apply ko_alt; other. Qed.
Notation ENTRY := (&"sectorline" // &"circle_sectorline" // &"display_sectorline" // &"sector" // &"cop" // &"fir_cop" // &"msaw").
Lemma bracket_entry r : ko G NonAtomic ENTRY (s2t "[" ++ r).
Proof. repeat apply ko_alt; other. Qed.
Lemma nothing_entry : ko G NonAtomic ENTRY [].
Proof. repeat apply ko_alt; other. Qed.

Definition entry_reads (a : airspace) (x : sector_rule) : Prop :=
  match a with
  | Sectorline id l => exists ps, x = XLine id ps /\ Forall2 reads_place (corners l) ps
  | CircleLine id _ _ _ => exists y, x = XCircle id y
  | DisplayLine _ _ _ _ => x = XDisplay
  | Sector id b t l => exists n m, parse_u32 b = Some n /\ parse_u32 t = Some m /\
      x = XSector (first_of border_of l) (mkEseSector id n m [] (first_of owner_of l) (first_of dep_of l) (first_of arr_of l)
            (flat_map (fun d => match d with Active a r => [(a, r)] | _ => [] end) l))
  | Copx fir c => exists y, x = (if fir then XFirCop y else XCop y) /\ reads_cop a [y]
  | Msaw id _ _ _ => exists m, x = XMsaw id m
  end.
Lemma first_found (f : detail -> option (list text)) (h : subsetting -> option (list text)) l : (forall d, h (sub_of d) = f d) ->
  or_empty (find_map h (map sub_of l)) = first_of f l.
Proof.
  intros E. unfold first_of. induction l as [|d l IH]; [reflexivity|]. cbn [map find_map flat_map]. rewrite E. destruct (f d) as [x|]; [reflexivity|]. cbn [app]. exact IH.
Qed.
Lemma omap_forall2 {A B C} (f : B -> outcome C) (h : A -> C) l m : Forall2 (fun a b => f b = Ret (h a)) l m -> omap f m = Ret (map h l).
Proof. induction 1 as [|a b l m E _ IH]; [reflexivity|]. cbn [omap map]. rewrite E, IH. reflexivity. Qed.
Lemma sector_value c id b t l trs n m : Forall2 (fun d tr => parse_subsetting tr = Ret (sub_of d)) l trs -> parse_u32 b = Some n -> parse_u32 t = Some m ->
  exists x, parse_airspace (T "sector" c ([ct id] ++ [it b] ++ [it t] ++ trs)) = Ret x /\ entry_reads (Sector id b t l) x.
Proof.
  intros F B T0. eexists. split; [|exists n, m; split; [exact B|]; split; [exact T0 | reflexivity]].
  unfold parse_airspace. change (is_rule (T "sector" c ([ct id] ++ [it b] ++ [it t] ++ trs)) "sectorline") with false.
  change (is_rule (T "sector" c ([ct id] ++ [it b] ++ [it t] ++ trs)) "sector") with true. cbv iota zeta.
  unfold parse_sector. cbn [kids_of app next obind text_of ct it]. rewrite B, T0. cbn [unwrap obind]. rewrite (omap_forall2 _ sub_of _ _ F). cbn [obind].
  rewrite (first_found border_of), (first_found owner_of), (first_found dep_of), (first_found arr_of) by (intros []; reflexivity).
  do 3 f_equal. clear F. induction l as [|d l IH]; [reflexivity|]. cbn [map filter_map flat_map]. destruct d; cbn [sub_of app]; rewrite IH; reflexivity.
Qed.
Lemma corners_filter l trs : Forall2 item_tree l trs -> filter (fun p => negb (is_rule p "display")) trs = map place_tree (corners l).
Proof.
  induction 1 as [|i tr l trs H _ IH]; [reflexivity|]. cbn [filter]. destruct i as [a b c|c]; cbn [item_tree] in H.
  - rewrite H. cbn [negb]. exact IH.
  - subst tr. change (negb (is_rule (place_tree c) "display")) with true. cbv iota. cbn [corners flat_map app map]. unfold corners in IH. rewrite IH. reflexivity.
Qed.
Lemma corners_read l : Forall good_item l -> exists ps, Forall2 reads_place (corners l) ps.
Proof.
  induction 1 as [|i l H _ [ps F]]; [exists []; constructor|]. destruct i as [a b c|c]; [exists ps; exact F|]. destruct H as [p P]. exists (p :: ps). cbn. constructor; assumption.
Qed.
Lemma fix_one a : one G a (LETTER // ASCII_DIGIT // str "(" // str ")" // str "/" // str "-" // str "_" // str ".") fix_char.
Proof.
  eapply one_ext; [repeat first [apply one_alt | apply one_sat | apply (one_chr G a 40) | apply (one_chr G a 41) | apply (one_chr G a 47) | apply (one_chr G a 45) | apply (one_chr G a 95) | apply (one_chr G a 46)]|].
  intros c. unfold fix_char. change (s2t "()/-_.") with [40; 41; 47; 45; 95; 46]%N. cbn [existsb]. rewrite orb_false_r, <- !orb_assoc. reflexivity.
Qed.
Lemma fix_stop c : fix_char c = true -> is_blank c = false /\ is_nl c = false /\ c <> 58%N.
Proof.
  intros H. assert (X : forall d, fix_char d = false -> c <> d) by (intros d E ->; congruence).
  pose proof (X 32%N eq_refl). pose proof (X 9%N eq_refl). pose proof (X 10%N eq_refl). pose proof (X 13%N eq_refl). pose proof (X 58%N eq_refl). clear X H.
  unfold is_blank, is_nl. lia.
Qed.
Lemma fix_opens w l : w <> [] -> Forall (fun c => fix_char c = true) w -> opens G (w ++ l).
Proof.
  intros NE F. destruct F as [|c w C F]; [congruence|]. split; [apply (fix_stop c C)|]. intros h' [E|[]]. injection E as <- _. discriminate C.
Qed.
Definition entry_tree (a : airspace) (tr : tree) : Prop := exists x, parse_airspace tr = Ret x /\ entry_reads a x.
Lemma entry_of nx n e k l a P T0 R N : get n G = Some (KNormal, str k ~~ e) -> body_atom n KNormal NonAtomic = NonAtomic ->
  line_rest R N nx -> opens G l -> reads_at G nx (before G T0) e l P -> (forall c ts, P ts -> entry_tree a (T n c ts)) ->
  exists v tr, okt NonAtomic (Call n) ((s2t k ++ l) ++ R) v [tr] /\ skipped G v T0 /\ entry_tree a tr.
Proof.
  intros E B L O H V.
  assert (X : reads_at G nx (before G T0) (Call n) (s2t k ++ l) (fun ts => exists tr, ts = [tr] /\ entry_tree a tr)).
  { eapply reads_call; [exact E | exact B | apply reads_str; [exact O | exact H]|]. intros c ts PT. eexists. split; [reflexivity|]. apply V, PT. }
  destruct (X R N L) as [v [ts [OK [SK [tr [-> Z]]]]]]. exists v, tr. auto.
Qed.
Ltac entry X := let v := fresh "v" in let tr := fresh "tr" in let OK := fresh "OK" in let SK := fresh "SK" in let Z := fresh "Z" in
  destruct X as [v [tr [OK [SK Z]]]]; [.. | exists v, tr; split; [|split; [exact SK | exact Z]]; repeat (apply okt_alt2; [rewrite <- app_assoc; other|]); first [exact OK | apply okt_alt1; exact OK]].
Ltac first_line H := let F0 := fresh "F0" in inversion H as [|? ? R N u T1 F0 L0 LT E1 E2 E3]; subst; clear H.
Lemma sectorline_ok id l t T0 : good_airspace (Sectorline id l) -> lines_to (airspace_lines (Sectorline id l)) t T0 -> fresh T0 ->
  exists v tr, okt NonAtomic ENTRY t v [tr] /\ skipped G v T0 /\ entry_tree (Sectorline id l) tr.
Proof.
  intros [W F] H FR. cbn [airspace_lines] in H. inversion H as [|l1 ls1 R N u T1 F0 L0 LT E1 E2 E3]; subst; clear H.
  destruct (lines_star G (&"display" // &"coord") border_text item_tree l u T0) as [v0 [trs [O [S FQ]]]];
    [eapply Forall_impl; [|exact F]; intros i GI nx; apply item_line, GI | exact LT | apply fresh_items, FR|].
  rewrite (keyed_text "SECTORLINE" "SECTORLINE:") by reflexivity. change (listed []) with (@nil BinNums.N). rewrite app_nil_r.
  entry (entry_of u "sectorline" _ "SECTORLINE:" id (Sectorline id l) (fun ts => exists t1, ts = t1 ++ trs /\ [ct id] = t1) T0 R N eq_refl eq_refl L0).
  - rewrite <- (app_nil_r id). apply words_opens; [exact W | exact I].
  - eapply reads_line_then; [apply ct_end, W | exact O | intros ?; exact S].
  - intros c ts [t1 [-> <-]]. destruct (corners_read l F) as [ps PS]. exists (XLine id ps). split; [|exists ps; auto].
    unfold parse_airspace. cbn -[parse_sectorline]. unfold parse_sectorline. cbn [kids_of next obind app]. rewrite (corners_filter l trs FQ), (places_value _ _ PS). reflexivity.
Qed.
Lemma circle_ok id f r l t T0 : good_airspace (CircleLine id f r l) -> lines_to (airspace_lines (CircleLine id f r l)) t T0 -> fresh T0 ->
  exists v tr, okt NonAtomic ENTRY t v [tr] /\ skipped G v T0 /\ entry_tree (CircleLine id f r l) tr.
Proof.
  intros [W [NE [FF [NR F]]]] H FR. cbn [airspace_lines] in H. inversion H as [|l1 ls1 R N u T1 F0 L0 LT E1 E2 E3]; subst; clear H.
  destruct (lines_star G &"display" (fun '(a, b, c) => border_text (Display a b c)) (fun _ tr => is_rule tr "display" = true) l u T0) as [v0 [trs [O [S FQ]]]];
    [eapply Forall_impl; [|exact F]; intros [[a b] c] GI nx; apply display_line, GI | exact LT | apply fresh_display, FR|].
  rewrite (keyed_text "CIRCLE_SECTORLINE" "CIRCLE_SECTORLINE:") by reflexivity. rewrite !listed_cons. change (listed []) with (@nil BinNums.N). rewrite app_nil_r.
  entry (entry_of u "circle_sectorline" _ "CIRCLE_SECTORLINE:" (id ++ colon ++ f ++ colon ++ r) (CircleLine id f r l)
    (cons_to [ct id] (cons_to [T "fix_designator" f []] (fun ts => exists t1, ts = t1 ++ trs /\ [T "decimal" r []] = t1))) T0 R N eq_refl eq_refl L0).
  - apply words_opens; [exact W | apply colon_opens].
  - apply ct_seq; [exact W | apply bound_colon|]. apply colon_seq; [apply fix_opens; assumption|].
    apply reads_seq; [intros R' N' t L; eapply tok_plus; [discriminate | reflexivity | apply fix_one | exact NE | exact FF | eapply bound_stops; [apply bound_colon | exact L | apply fix_stop]] | apply colon_opens|].
    apply colon_seq; [rewrite <- (app_nil_r r); apply number_opens, NR|].
    eapply reads_line_then; [apply reads_tok | exact O | intros ?; exact S].
    intros R' N' t L. apply (decimal_tok G); [discriminate | reflexivity | exact NR|]. apply (bound_stops number_stop [] R' N' t); [apply bound_nil | exact L | apply num_stop].
  - intros c ts X. uncons. destruct X as [t1 [-> <-]]. destruct (parse_numeral 24 128 r NR) as [x PX]. eexists. split; [|eexists; reflexivity].
    unfold parse_airspace. cbn -[parse_circle]. unfold parse_circle. cbn [kids_of next obind app text_of ct]. unfold parse_f32. rewrite PX. reflexivity.
Qed.
Lemma display_ok a b c d t T0 : good_airspace (DisplayLine a b c d) -> lines_to (airspace_lines (DisplayLine a b c d)) t T0 -> fresh T0 ->
  exists v tr, okt NonAtomic ENTRY t v [tr] /\ skipped G v T0 /\ entry_tree (DisplayLine a b c d) tr.
Proof.
  intros GA H FR. cbn [airspace_lines good_airspace] in *. inversion H as [|l1 ls1 R N u T1 F0 L0 LT E1 E2 E3]; subst; clear H. inversion LT; subst.
  repeat match goal with H : Forall _ (_ :: _) |- _ => inversion H; clear H; subst end.
  rewrite (keyed_text "DISPLAY_SECTORLINE" "DISPLAY_SECTORLINE:") by reflexivity. rewrite !listed_cons. change (listed []) with (@nil BinNums.N). rewrite app_nil_r.
  entry (entry_of T0 "display_sectorline" _ "DISPLAY_SECTORLINE:" (a ++ colon ++ b ++ colon ++ c ++ colon ++ d) (DisplayLine a b c d)
    (cons_to [ct a] (cons_to [ct b] (cons_to [ct c] (eq [ct d])))) T0 R N eq_refl eq_refl L0).
  - apply words_opens; [assumption | apply colon_opens].
  - do 3 (apply ct_seq; [assumption | apply bound_colon|]; apply colon_seq; [first [apply words_opens; [assumption | apply colon_opens] | rewrite <- (app_nil_r d); apply words_opens; [assumption | exact I]]|]).
    apply FileForward.reads_line, ct_end. assumption.
  - intros s ts _. exists XDisplay. split; reflexivity.
Qed.
Lemma sector_ok id b tp l t T0 : good_airspace (Sector id b tp l) -> (exists o, reads_sector [] (Sector id b tp l) o) -> lines_to (airspace_lines (Sector id b tp l)) t T0 -> fresh T0 ->
  exists v tr, okt NonAtomic ENTRY t v [tr] /\ skipped G v T0 /\ entry_tree (Sector id b tp l) tr.
Proof.
  intros [W [WB [WT F]]] [o [x [_ [_ [PB [PT _]]]]]] H FR. cbn [airspace_lines] in *. inversion H as [|l1 ls1 R N u T1 F0 L0 LT E1 E2 E3]; subst; clear H.
  destruct (lines_star G &"sector_subsettings" detail_text (fun d tr => parse_subsetting tr = Ret (sub_of d)) l u T0) as [v0 [trs [O [S FQ]]]];
    [eapply Forall_impl; [|exact F]; intros d GD nx; apply detail_line, GD | exact LT | apply fresh_details, FR|].
  rewrite (keyed_text "SECTOR" "SECTOR:") by reflexivity. rewrite !listed_cons. change (listed []) with (@nil BinNums.N). rewrite app_nil_r.
  entry (entry_of u "sector" _ "SECTOR:" (id ++ colon ++ b ++ colon ++ tp) (Sector id b tp l)
    (cons_to [ct id] (cons_to [it b] (fun ts => exists t1, ts = t1 ++ trs /\ [it tp] = t1))) T0 R N eq_refl eq_refl L0).
  - apply words_opens; [exact W | apply colon_opens].
  - apply ct_seq; [exact W | apply bound_colon|]. apply colon_seq; [apply whole_opens, WB|].
    apply int_seq; [exact WB | apply bound_colon|]. apply colon_seq; [rewrite <- (app_nil_r tp); apply whole_opens, WT|].
    eapply reads_line_then; [apply int_end, WT | exact O | intros ?; exact S].
  - intros c ts X. uncons. destruct X as [t1 [-> <-]]. eapply sector_value; eassumption.
Qed.
Lemma cop_ok fir c t T0 : good_airspace (Copx fir c) -> (exists o, reads_cop (Copx fir c) o) -> lines_to (airspace_lines (Copx fir c)) t T0 -> fresh T0 ->
  exists v tr, okt NonAtomic ENTRY t v [tr] /\ skipped G v T0 /\ entry_tree (Copx fir c) tr.
Proof.
  intros GC [o [y [-> Y]]] H FR. cbn [airspace_lines good_airspace] in *. inversion H as [|l1 ls1 R N u T1 F0 L0 LT E1 E2 E3]; subst; clear H. inversion LT; subst.
  assert (RC : reads_cop (Copx false c) [y]) by (exists y; auto).
  assert (W : opt_whole (k_climb c) /\ opt_whole (k_descent c)) by (split; eapply level_whole; apply Y). destruct W as [W1 W2].
  pose proof (cop_body T0 c GC W1 W2) as CB. unfold cop_text.
  match type of CB with reads_at _ _ _ _ ?l _ => set (body := l) in * end. assert (OB : opens G body) by (apply opt_words_opens; [apply GC | apply bound_opens, listed_bound]). destruct fir.
  - rewrite (keyed_text "FIR_COPX" "FIR_COPX:") by reflexivity. fold body. entry (entry_of T0 "fir_cop" _ "FIR_COPX:" body (Copx true c) (eq (cop_trees c)) T0 R N eq_refl eq_refl L0).
    + exact OB.
    + exact CB.
    + intros s ts <-. exists (XFirCop y). split; [|exists y; split; [reflexivity | exact RC]]. unfold parse_airspace. cbn -[parse_cop cop_trees]. rewrite (cop_value c "fir_cop" s y RC). reflexivity.
  - rewrite (keyed_text "COPX" "COPX:") by reflexivity. fold body. entry (entry_of T0 "cop" _ "COPX:" body (Copx false c) (eq (cop_trees c)) T0 R N eq_refl eq_refl L0).
    + exact OB.
    + exact CB.
    + intros s ts <-. exists (XCop y). split; [|exists y; split; [reflexivity | exact RC]]. unfold parse_airspace. cbn -[parse_cop cop_trees]. rewrite (cop_value c "cop" s y RC). reflexivity.
Qed.
Lemma msaw_ok id alt c l t T0 : good_airspace (Msaw id alt c l) -> lines_to (airspace_lines (Msaw id alt c l)) t T0 -> fresh T0 ->
  exists v tr, okt NonAtomic ENTRY t v [tr] /\ skipped G v T0 /\ entry_tree (Msaw id alt c l) tr.
Proof.
  intros [W [WA [[n PN] F]]] H FR. cbn [airspace_lines] in *. inversion H as [|l1 ls1 R N u T1 F0 L0 LT E1 E2 E3]; subst; clear H.
  destruct (lines_plus G &"coord" (fun c => border_text (Corner c)) (fun c tr => tr = place_tree c) (c :: l) u T0) as [v0 [trs [O [S FQ]]]];
    [discriminate | eapply Forall_impl; [|exact F]; intros d [p P] nx; eapply coord_line, P | exact LT | apply fresh_coord, FR|].
  rewrite (keyed_text "MSAW" "MSAW:") by reflexivity. rewrite !listed_cons. change (listed []) with (@nil BinNums.N). rewrite app_nil_r.
  entry (entry_of u "msaw" _ "MSAW:" (id ++ colon ++ alt) (Msaw id alt c l) (cons_to [ct id] (fun ts => exists t1, ts = t1 ++ trs /\ [it alt] = t1)) T0 R N eq_refl eq_refl L0).
  - apply words_opens; [exact W | apply colon_opens].
  - apply ct_seq; [exact W | apply bound_colon|]. apply colon_seq; [rewrite <- (app_nil_r alt); apply whole_opens, WA|].
    eapply reads_line_then; [apply int_end, WA | exact O | intros ?; exact S].
  - intros s ts X. uncons. destruct X as [t1 [-> <-]].
    assert (PS : exists ps, omap ese_coordinate trs = Ret ps).
    { clear - F FQ. induction FQ as [|d tr ds trs E _ IH]; [exists []; reflexivity|]. inversion F as [|? ? [p P] F']; subst. destruct (IH F') as [ps PS]. exists (p :: ps). cbn [omap].
      rewrite (place_value_ok d p P), PS. reflexivity. }
    destruct PS as [ps PS]. eexists. split; [|eexists; reflexivity]. unfold parse_airspace. cbn -[parse_msaw]. unfold parse_msaw. cbn [kids_of next obind app text_of ct it]. rewrite PN. cbn [unwrap obind]. rewrite PS. reflexivity.
Qed.
Lemma entry_ok a : good_airspace a -> (exists o, reads_sector [] a o) -> (exists o, reads_cop a o) -> forall t T0, lines_to (airspace_lines a) t T0 -> fresh T0 ->
  exists v tr, okt NonAtomic ENTRY t v [tr] /\ skipped G v T0 /\ entry_tree a tr.
Proof.
  intros GA GS GC t T0 LT FR. destruct a; [apply sectorline_ok | apply circle_ok | apply display_ok | apply sector_ok | apply cop_ok | apply msaw_ok]; assumption.
Qed.
Lemma entry_fresh a t T0 : lines_to (airspace_lines a) t T0 -> fresh t.
Proof.
  intros H. right. destruct a as [id l|id f r l|a b c d|id bot top0 l|fir c|id alt c l]; cbn [airspace_lines] in H; inversion H as [|l1 ls1 R N u T1 F0 L0 LT E1 E2 E3]; subst.
  - rewrite (keyed_text "SECTORLINE" "SECTORLINE:") by reflexivity. rewrite <- app_assoc. eexists _, _. split; [reflexivity | cbn; tauto].
  - rewrite (keyed_text "CIRCLE_SECTORLINE" "CIRCLE_SECTORLINE:") by reflexivity. rewrite <- app_assoc. eexists _, _. split; [reflexivity | cbn; tauto].
  - rewrite (keyed_text "DISPLAY_SECTORLINE" "DISPLAY_SECTORLINE:") by reflexivity. rewrite <- app_assoc. eexists _, _. split; [reflexivity | cbn; tauto].
  - rewrite (keyed_text "SECTOR" "SECTOR:") by reflexivity. rewrite <- app_assoc. eexists _, _. split; [reflexivity | cbn; tauto].
  - destruct fir; unfold cop_text; [rewrite (keyed_text "FIR_COPX" "FIR_COPX:") by reflexivity | rewrite (keyed_text "COPX" "COPX:") by reflexivity];
      rewrite <- app_assoc; eexists _, _; (split; [reflexivity | cbn; tauto]).
  - rewrite (keyed_text "MSAW" "MSAW:") by reflexivity. rewrite <- app_assoc. eexists _, _. split; [reflexivity | cbn; tauto].
Qed.
