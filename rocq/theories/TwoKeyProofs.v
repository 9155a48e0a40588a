(** Proofs about the JSON form of maps with two keys. *)
From Verif Require Import Base Unicode Peg Grammars SpecPeg PegProofs PegLang PegTree PegForward Trees SpecPairs PairsProofs Verdict SpecKeyed Json TwoKey SpecTwoKey.
From Verif Require Import Prf SpecPrf PrfProofs.
From Verif Require Asr SpecAsr AsrProofs SymbologyParse SpecSymbology SymbologyProofs.
Local Open Scope string_scope.
Local Open Scope list_scope.

Lemma joined_inj a b a' b' : no_colon a -> no_colon a' -> joined a b = joined a' b' -> a = a' /\ b = b'.
Proof.
  unfold joined, no_colon. revert a'. induction a as [|x a IH]; intros [|x' a'] N N' E; cbn in E; injection E.
  - auto.
  - intros _ <-. contradiction N'. left. reflexivity.
  - intros _ ->. contradiction N. left. reflexivity.
  - intros E' <-. destruct (IH a') as [-> ->]; auto; intros I; [apply N | apply N']; right; exact I.
Qed.
Lemma shown {V} (write : V -> json) m it : NoDup (keys m) -> (forall a b v, In ((a, b), v) m -> no_colon a) -> Permutation it m -> shows write m (two_key_json write it).
Proof.
  intros ND NC P. assert (NDi : NoDup (keys it)) by (eapply Permutation_NoDup; [apply Permutation_map, Permutation_sym, P | exact ND]).
  assert (NCi : forall a b v, In ((a, b), v) it -> no_colon a) by (intros a b v I; eapply NC, Permutation_in; eassumption).
  eexists. split; [reflexivity|]. rewrite map_map. cbn [fst]. split; [|split].
  - clear - NDi NCi. induction it as [|[[a b] v] it IH]; [constructor|]. cbn [keys map] in *. inversion NDi as [|? ? NI ND']; subst. constructor.
    + intros I. apply in_map_iff in I. destruct I as [[[a' b'] v'] [E I]]. cbn [fst snd] in *. apply NI.
      destruct (joined_inj a' b' a b) as [-> ->]; [eapply NCi; right; exact I | eapply NCi; left; reflexivity | exact E|].
      apply in_map_iff. exists ((a, b), v'). auto.
    + apply IH; [exact ND'|]. intros a' b' v' I. eapply NCi. right. exact I.
  - intros a b v G. apply get_In in G. split; [exact (NC a b v G)|]. apply in_map_iff. exists ((a, b), v). split; [reflexivity|].
    eapply Permutation_in; [apply Permutation_sym, P | exact G].
  - intros n x I. apply in_map_iff in I. destruct I as [[[a b] v] [E I]]. cbn [fst snd] in E. injection E as <- <-.
    exists a, b, v. split; [exact (NCi a b v I)|]. split; [reflexivity|]. split; [|reflexivity]. apply In_get; [exact ND|]. eapply Permutation_in; eassumption.
Qed.
Lemma shows_determines {V} (write : V -> json) m m' j : (forall v v', write v = write v' -> v = v') -> shows write m j -> shows write m' j -> forall k, get k m = get k m'.
Proof.
  intros W S S' k.
  assert (X : forall m m', shows write m j -> shows write m' j -> forall v, get k m = Some v -> get k m' = Some v).
  { clear - W. intros m m' [l [E [_ [A B]]]] [l' [E' [_ [A' B']]]] v G. rewrite E in E'. injection E' as <-. destruct k as [a b].
    destruct (A a b v G) as [NC I]. destruct (B' _ _ I) as [a' [b' [v' [NC' [EJ [G' EW]]]]]]. apply joined_inj in EJ; try assumption. destruct EJ as [<- <-].
    apply W in EW. subst. exact G'. }
  destruct (get k m) as [v|] eqn:G; [exact (eq_sym (X m m' S S' v G))|]. destruct (get k m') as [v|] eqn:G'; [|reflexivity].
  rewrite (X m' m S' S v G') in G. discriminate G.
Qed.

(** ** Profiles *)
Lemma prf_categories t es : prf_file t es -> Forall (fun e => no_colon (e_category e)) es.
Proof.
  assert (L : forall l e, setting_line l e -> no_colon (e_category e)).
  { intros l e [cat b1 key b2 val _ F _ _ _ _ _ _ _ _ _] I. rewrite Forall_forall in F. specialize (F _ I). vm_compute in F. discriminate F. }
  induction 1; constructor; eauto.
Qed.
Lemma prf_shown t m : parse_settings t = Ret m -> NoDup (keys m) /\ forall a b v, In ((a, b), v) m -> no_colon a.
Proof.
  intros E. destruct (prf_total t) as [[es [_ [F E']]]|[E' _]]; rewrite E in E'; [|discriminate]. injection E' as ->.
  split; [apply NoDup_of_list|]. intros a b v I. apply In_get in I; [|apply NoDup_of_list]. rewrite get_of_list in I. apply get_In in I. apply in_rev in I.
  apply in_map_iff in I. destruct I as [e [X I]]. injection X as <- <- <-. pose proof (prf_categories t es F) as C. rewrite Forall_forall in C. exact (C e I).
Qed.

(** ** Names up to a colon *)
Lemma until_colon g a s c r ts : a <> NonAtomic -> yes g a (Star (until (Alt s (Str [58%N])))) c r ts -> ~ In 58%N c.
Proof.
  intros A. assert (U : forall c r ts, yes g a (until (Alt s (Str [58%N]))) c r ts -> ~ In 58%N c).
  { clear c r ts. intros c r ts H. apply yes_seq_at in H; [|exact A]. destruct H as [c1 [c2 [t1 [t2 [-> [_ [[-> [_ [_ N]]] [y [-> [_ _]]]]]]]]]].
    cbn [app] in *. intros [Y|[]]. subst y. exact (N r eq_refl). }
  intros [H|[-> _]]; [|intros []]. destruct H as [c1 [c2 [t1 [t2 [-> [_ [X H]]]]]]]. apply U in X. intros I. apply in_app_or in I. destruct I as [I|I]; [exact (X I)|].
  clear X. change (reps (yes g a (Then Skip (until (Alt s (Str [58%N]))))) (no g a (Then Skip (until (Alt s (Str [58%N]))))) c2 r t2) in H.
  induction H as [|d1 d2 r' u1 u2 Y _ IH]; [exact I|]. apply in_app_or in I. destruct I as [I|I]; [|exact (IH I)].
  destruct Y as [e1 [e2 [w1 [w2 [-> [_ [[_ Z] Y]]]]]]]. assert (e1 = []) as -> by (destruct a; [contradiction A; reflexivity | exact Z | exact Z]).
  exact (U _ _ _ Y I).
Qed.
Lemma name_no_colon g (Q : tacit g = true) n s p : get n g = Some (KAtomic, Star (until (Alt s (str ":")))) -> born g NonAtomic n p -> no_colon (text_of p).
Proof.
  intros G B. destruct (born_yes g Q _ _ _ B _ _ G ltac:(discriminate) ltac:(discriminate)) as [r Y]. revert Y. apply until_colon. cbn. discriminate.
Qed.

(** ** Plugin settings of .asr files *)
Lemma plugin_name p : born asr_grammar NonAtomic "plugin" p -> forall a b, texts "multivalue" p = [a; b] -> no_colon a.
Proof.
  intros B a b E. pose proof (born_rule _ _ _ _ B) as R. kids B as K. destruct p as [n s k]. cbn [kids_of rule_of] in *. subst.
  pose proof (name_no_colon asr_grammar eq_refl "multivalue" _ t eq_refl K0) as N.
  apply born_rule in K, K0, K1. unfold texts in E. cbn [kids_of] in E.
  destruct t as [m1 v1 l1], t0 as [m2 v2 l2], t1 as [m3 v3 l3]. cbn [rule_of] in *. subst. vm_compute in E. injection E as <- _. exact N.
Qed.
Lemma asr_parsed t a : Asr.asr_parse t = Ret a -> exists kids, parsed asr_grammar "asr" t kids.
Proof.
  intros E. destruct (top_cases 2 "asr" asr_grammar "asr" eq_refl ltac:(eexists; reflexivity) t) as [[kids [P _]]|[U _]]; [exists kids; exact P|].
  pose proof (AsrProofs.asr_err t U) as X. rewrite X in E. discriminate E.
Qed.
Lemma plugin_born t kids p : parsed asr_grammar "asr" t kids -> In p (of_rule "plugin" kids) -> born asr_grammar NonAtomic "plugin" p.
Proof.
  intros P I. apply In_of_rule in I. destruct I as [I R].
  destruct (AsrProofs.asr_kids t kids P) as [ds [E F]]. rewrite E in I. apply in_app_or in I. destruct I as [I|[I|I]]; [|subst p; discriminate R | contradiction I].
  rewrite Forall_forall in F. destruct (F p I) as [n [_ B]]. pose proof (born_rule _ _ _ _ B) as R'. rewrite R in R'. rewrite <- R' in B. exact B.
Qed.
Lemma asr_shown t a : Asr.asr_parse t = Ret a -> NoDup (keys (Asr.asr_plugin_settings a)) /\ forall x y v, In ((x, y), v) (Asr.asr_plugin_settings a) -> no_colon x.
Proof.
  intros E. destruct (asr_parsed t a E) as [kids P].
  destruct (AsrProofs.asr_ok t kids P) as [[_ [a' [E' [_ [_ [ND PL]]]]]]|[_ E']]; [|congruence].
  assert (a' = a) as -> by congruence.
  split; [exact ND|]. intros x y v I. apply In_get in I; [|exact ND]. apply PL in I. destruct I as [l1 [p [l2 [L [T _]]]]].
  apply (plugin_name p) with (b := y); [|exact T]. apply (plugin_born t kids p P). rewrite L. apply in_elt.
Qed.

(** ** Items of symbology files *)
Lemma item_folder p : born symbology_grammar NonAtomic "item" p -> forall a b, texts "colon_delimited_text" p = [a; b] -> no_colon a.
Proof.
  intros B a b E. pose proof (born_rule _ _ _ _ B) as R. kids B as K. destruct p as [n s k]. cbn [kids_of rule_of] in *. subst.
  pose proof (name_no_colon symbology_grammar eq_refl "colon_delimited_text" _ t eq_refl K0) as N.
  apply born_rule in K, K0, K1, K2, K3, K4, K5. unfold texts in E. cbn [kids_of] in E.
  destruct t as [m0 v0 l0], t0 as [m1 v1 l1], t1 as [m2 v2 l2], t2 as [m3 v3 l3], t3 as [m4 v4 l4], t4 as [m5 v5 l5], t5 as [m6 v6 l6]. cbn [rule_of] in *. subst.
  vm_compute in E. injection E as <- _. exact N.
Qed.
Lemma items_NoDup kids : forall s s', ofold SymbologyParse.symbology_step kids s = Ret s' -> NoDup (keys (SymbologyParse.sg_items s)) -> NoDup (keys (SymbologyParse.sg_items s')).
Proof.
  induction kids as [|p kids IH]; intros s s' E ND; cbn [ofold] in E; [injection E as <-; exact ND|].
  destruct (SymbologyParse.symbology_step s p) as [s1| |] eqn:S; [|discriminate E..]. cbn [obind] in E. apply (IH s1 s' E). clear IH E.
  destruct s as [items symbols]. unfold SymbologyParse.symbology_step in S. cbn [SymbologyParse.sg_items] in ND.
  destruct (is_rule p "item"); [|destruct (is_rule p "symbol"); [|destruct (is_rule p "header" || is_rule p "footer" || is_rule p "EOI"); [|discriminate S]]].
  - destruct (SymbologyParse.parse_item p) as [o| |]; [|discriminate S..]. cbn [obind] in S. injection S as <-. cbn [SymbologyParse.sg_items].
    destruct o; [apply NoDup_put|]; exact ND.
  - destruct (SymbologyParse.parse_symbol_rules p) as [o| |]; [|discriminate S..]. cbn [obind] in S. injection S as <-. exact ND.
  - injection S as <-. exact ND.
Qed.
Lemma symbology_shown t s : SymbologyParse.parse_symbology t = Ret s ->
  NoDup (keys (SymbologyParse.sg_items s)) /\ forall x y v, In ((x, y), v) (SymbologyParse.sg_items s) -> no_colon x.
Proof.
  intros E. destruct (top_cases 10 "symbology" symbology_grammar "symbology" eq_refl ltac:(eexists; reflexivity) t) as [[kids [P X]]|[U _]];
    [|pose proof (SymbologyProofs.symbology_err t U) as X; rewrite X in E; discriminate E].
  assert (ND : NoDup (keys (SymbologyParse.sg_items s))).
  { apply (items_NoDup kids (SymbologyParse.mkSymbology [] [])); [|constructor]. rewrite <- E. unfold SymbologyParse.parse_symbology. rewrite X. reflexivity. }
  split; [exact ND|]. destruct (SymbologyProofs.symbology_file_ok t kids P) as [[_ [s' [E' [H _]]]]|[_ E']]; rewrite E in E'; [|discriminate E']. injection E' as <-.
  intros x y v I. apply In_get in I; [|exact ND]. specialize (H (x, y)). rewrite I in H. destruct H as [p [[l1 [l2 [L [[T _] _]]]] _]]. cbn [fst snd] in T.
  assert (J : In p (of_rule "item" kids)) by (rewrite L; apply in_elt). apply In_of_rule in J. destruct J as [J R].
  pose proof (SymbologyProofs.symbology_kids t kids P) as F. rewrite Forall_forall in F. destruct (F p J) as [B|[B|N]].
  - exact (item_folder p B x y T).
  - apply born_rule in B. congruence.
  - rewrite R in N. cbn in N. intuition discriminate.
Qed.
