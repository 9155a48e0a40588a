(** Proofs for C82 and C83: symbols in TopSky files. *)
From Coq Require Import ZifyBool ZifyN ZifyNat.
From Verif Require Import Base Num Float FloatParse Settings Peg Grammars SpecPeg PegProofs PegLang PegForward PegSkip Trees
  SpecText TextProofs SpecFields FileForward SpecEseText SymbolParse SpecSymbol SpecDrawn DrawnText TopskyParse SpecTopskyText TopskyText.
Local Open Scope string_scope.
Local Open Scope list_scope.

Local Notation G := topsky_grammar.
Lemma rules_in : Forall (fun '(n, r) => get n G = Some r) Grammars.symbol_rule.
Proof. repeat (apply Forall_cons; [reflexivity|]). apply Forall_nil. Qed.
Lemma rest_closes R t : rest R t -> DrawnText.closing R.
Proof.
  intros [b [nl [k [-> [B [E _]]]]]].
  assert (X : forall b : text, blanks b -> exists c r, b ++ nl ++ k ++ t = c :: r /\ blank_or_nl c).
  { intros [|c b0] B0; [destruct E as [-> | ->]; eexists _, _; (split; [reflexivity | right; reflexivity])|].
    inversion B0; subst. eexists _, _. split; [reflexivity | left; assumption]. }
  destruct b as [|c b]; [destruct E as [-> | ->]; eexists _, _; (split; [reflexivity | left; reflexivity])|].
  inversion B; subst. eexists c, _. split; [reflexivity|]. right. split; [assumption|]. apply X. assumption.
Qed.
Lemma rule_line d r R t : reads_drawn d r -> rest R t ->
  exists v tr, okt G NonAtomic &"symbolrule" (drawn_text d ++ R) v [tr] /\ FileForward.skipped G v t /\ parse_symbol_rule tr = Ret r.
Proof.
  intros H X. destruct (drawn_ok G eq_refl eq_refl rules_in d r R H (rest_closes R t X)) as [tr [O P]]. destruct (nl_ok R t X) as [v [ON SV]].
  exists v, tr. split; [|split; [exact SV | exact P]]. eapply okt_silent; [reflexivity | reflexivity|].
  apply (seq0 _ _ _ R v [tr] []); [exact O | eapply rest_clear, X | apply okt_opt, ON].
Qed.
Lemma drawn_starts d r : reads_drawn d r -> starts (false, drawn_text d).
Proof. intros [_ H]. unfold drawn_text. destruct d as [kw nums]. cbn [dr_word dr_numbers] in *. destruct H; apply starts_kw; reflexivity. Qed.
Lemma all_start l rs : Forall2 reads_drawn l rs -> Forall starts (map (fun d => (false, drawn_text d)) l).
Proof. intros F. induction F as [|d r l rs H F IH]; [apply Forall_nil|]. apply Forall_cons; [eapply drawn_starts, H | exact IH]. Qed.
(** what does not start like a rule *)
Definition rule_words : list string := ["MOVETO"; "LINETO"; "FILLARC"; "FILLARC"; "ARC"; "ARC"; "POLYGON"; "SETPIXEL"; "ELLIPSE"; "ELLIPSE"; "FILLRECT"].
Lemma rule_ko t : (forall kw, In kw rule_words -> forall r, t <> s2t kw ++ r) -> ko G NonAtomic &"symbolrule" t.
Proof.
  intros N. eapply ko_call; [reflexivity|]. apply ko_seq1. unfold rule_words in N.
  repeat (apply ko_alt; [eapply ko_call; [reflexivity|]; apply ko_seq1, ko_str; apply N; cbn [In]; tauto|]).
  eapply ko_call; [reflexivity|]; apply ko_seq1, ko_str; apply N; cbn [In]; tauto.
Qed.
Definition ruleless (L : list (bool * text)) : Prop := forall t, rows L t -> ko G NonAtomic &"symbolrule" t.
Lemma rules_run l rs : Forall2 reads_drawn l rs -> forall L t, Forall starts L -> ruleless L -> rows (map (fun d => (false, drawn_text d)) l ++ L) t ->
  exists t' qs, run G &"symbolrule" t t' qs /\ rows L t' /\ omap parse_symbol_rule qs = Ret rs.
Proof.
  intros F. induction F as [|d r l rs H F IH]; intros L t SL N RW.
  - exists t, []. split; [apply run_nil, N, RW|]. split; [exact RW | reflexivity].
  - cbn [map app] in RW. apply rows_first in RW; [|apply Forall_app; split; [eapply all_start, F | exact SL]].
    destruct RW as [b [R [t1 [-> [_ [[->|Z] [X RW]]]]]]]; [|discriminate Z]. cbn [app]. destruct (rule_line d r R t1 H X) as [v [tr [O [SV P]]]].
    destruct (IH L t1 SL N RW) as [t' [qs [Q [RW' V]]]]. exists t', (tr :: qs). split; [apply (run_cons G &"symbolrule" _ v t1 t' [tr] qs); assumption|].
    split; [exact RW'|]. cbn [omap]. rewrite P. cbn [obind]. rewrite V. reflexivity.
Qed.
Lemma run_some e t r ts : run G e t r ts -> ts <> [] -> FileForward.skipped G r r -> exists v, okt G NonAtomic (Plus e) t v ts /\ FileForward.skipped G v r.
Proof. intros [t0 K|t0 u t' r0 t1 t2 O S R] NE SR; [congruence|]. eapply run_plus; eassumption. Qed.
Lemma drawing_ok n key name l s L t : In (n, key) [("symbol", "SYMBOL:"); ("symboldef", "SYMBOLDEF:")] -> reads_drawing name l s -> Forall starts L -> ruleless L ->
  rows (drawing_lines key name l ++ L) t ->
  exists v t' c ks x, t = s2t key ++ x /\ okt G NonAtomic (Call n) t v [T n c ks] /\ FileForward.skipped G v t' /\ rows L t' /\ parse_symbol (T n c ks) = Ret (Some s).
Proof.
  intros I [W [EN [NL F]]] SL N RW. unfold drawing_lines in RW. cbn [app] in RW.
  assert (SA : Forall starts (map (fun d => (false, drawn_text d)) l ++ L)) by (apply Forall_app; split; [eapply all_start, F | exact SL]).
  apply rows_first in RW; [|exact SA]. destruct RW as [b [R [t1 [-> [_ [[->|Z] [X RW]]]]]]]; [|discriminate Z]. cbn [app].
  destruct (rules_run l (snd s) F L t1 SL N RW) as [t' [qs [Q [RW' V]]]].
  assert (NQ : qs <> []) by (intros ->; injection V as V; rewrite <- V in F; inversion F; subst; contradiction NL; reflexivity).
  destruct (run_some _ _ _ _ Q NQ) as [v [O SV]]; [apply skip_clear, solid_clear; apply (rows_solid L t' SL RW')|].
  destruct (nl_ok R t1 X) as [u [ON SU]].
  assert (B : okt G NonAtomic (str key ~~ &"colon_delimited_text" ~~ &"NL" ~~ Plus &"symbolrule") ((s2t key ++ name) ++ R) v ([ctree name] ++ qs)).
  { rewrite <- app_assoc. assert (CR := rest_clear R t1 X). apply (seq0 _ _ _ (name ++ R) v [] ([ctree name] ++ qs)); [apply okt_str | apply clear_word; assumption|].
    apply (seq0 _ _ _ R v [ctree name] qs); [apply ct_ok; [exact W | eapply rest_after, X] | exact CR|].
    apply (okt_seq G _ _ R u t1 v [] qs); assumption. }
  assert (E : get n G = Some (KNormal, str key ~~ &"colon_delimited_text" ~~ &"NL" ~~ Plus &"symbolrule") /\ body_atom n KNormal NonAtomic = NonAtomic /\ forall c ks, is_rule (T n c ks) "symbol" || is_rule (T n c ks) "symboldef" = true).
  { cbn [In] in I. destruct I as [I|[I|[]]]; injection I as <- <-; split; [reflexivity | split; reflexivity | reflexivity | split; reflexivity]. }
  destruct E as [E1 [E2 E3]]. destruct (okt_normal G n _ E1 E2 _ _ _ B) as [c [EC OM]].
  exists v, t', c, ([ctree name] ++ qs), (name ++ R). split; [symmetry; apply app_assoc|]. split; [exact OM|]. split; [exact SV|]. split; [exact RW'|].
  unfold parse_symbol. assert (Y : is_rule (T n c ([ctree name] ++ qs)) "symbol" || is_rule (T n c ([ctree name] ++ qs)) "symboldef" = true) by apply E3. rewrite Y.
  cbn [kids_of app next obind text_of ctree]. rewrite V. cbn [obind]. destruct s as [nm rs]. cbn in EN |- *. subst nm. reflexivity.
Qed.
