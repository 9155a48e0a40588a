(** What a match says about the text, expression by expression: the tool for proofs about concrete grammars. *)
From Coq Require Import ZifyBool ZifyN ZifyNat.
From Verif Require Import Base Peg SpecPeg PegProofs.

Section Lang.
  Variable g : grammar.
  Definition node (n : string) (a : atom) (c r : text) (ts : list tree) : Prop :=
    exists b k k', matches g a (Call n) b (c ++ r) k (Some (c, r, k', ts)).
  Definition nonode (n : string) (a : atom) (r : text) : Prop := exists b k, matches g a (Call n) b r k None.

  Inductive reps (P : text -> text -> list tree -> Prop) (Q : text -> Prop) : text -> text -> list tree -> Prop :=
  | reps_nil r : Q r -> reps P Q [] r []
  | reps_cons c1 c2 r t1 t2 : P c1 (c2 ++ r) t1 -> reps P Q c2 r t2 -> reps P Q (c1 ++ c2) r (t1 ++ t2).

  Definition blank (c : text) : Prop := exists r, node "WHITESPACE" NonAtomic c r [] \/ node "COMMENT" NonAtomic c r [].
  Definition gap (c : text) : Prop := exists l, c = List.concat l /\ Forall blank l.

  Definition skips (c r : text) : Prop := exists b k k', matches g NonAtomic Skip b (c ++ r) k (Some (c, r, k', [])).

  (** [yes a e c r ts]: [e] has matched [c] before [r]; [no a e r]: it has not matched at [r] *)
  Fixpoint yes (a : atom) (e : expr) (c r : text) (ts : list tree) : Prop :=
    match e with
    | Str s => c = s /\ ts = []
    | Sat f => exists x, c = [x] /\ f x = true /\ ts = []
    | SOI => c = [] /\ ts = []
    | EOI => c = [] /\ r = [] /\ ts = match a with Atomic => [] | _ => [T "EOI" [] []] end
    | Call n => node n a c r ts
    | Then x y => exists c1 c2 t1 t2, c = c1 ++ c2 /\ ts = t1 ++ t2 /\ yes a x c1 (c2 ++ r) t1 /\ yes a y c2 r t2
    | Alt x y => yes a x c r ts \/ no a x (c ++ r) /\ yes a y c r ts
    | Opt x => yes a x c r ts \/ c = [] /\ ts = [] /\ no a x r
    | Many x => reps (yes a x) (no a x) c r ts
    | Not x => c = [] /\ ts = [] /\ no a x r
    | Push x => yes a x c r ts
    | Pop => ts = []
    | Skip => ts = [] /\ match a with NonAtomic => skips c r | _ => c = [] end
    end
  with no (a : atom) (e : expr) (r : text) : Prop :=
    match e with
    | Str s => forall r', r <> s ++ r'
    | Sat f => match r with x :: _ => f x = false | [] => True end
    | EOI => r <> []
    | Call n => nonode n a r
    | Then x y => no a x r \/ exists c1 r1 t1, r = c1 ++ r1 /\ yes a x c1 r1 t1 /\ no a y r1
    | Alt x y => no a x r /\ no a y r
    | Not x => exists c r1 t, r = c ++ r1 /\ yes a x c r1 t
    | Push x => no a x r
    | Opt _ | Many _ | Skip => False
    | SOI | Pop => True
    end.

  (** white space and comments yield no pairs *)
  Fixpoint plain (e : expr) : bool :=
    match e with
    | Str _ | Sat _ | SOI | Pop => true
    | EOI | Call _ => false
    | Then a b | Alt a b => plain a && plain b
    | Opt a | Many a | Push a => plain a
    | Not _ | Skip => true
    end.
  Definition quiet1 (n : string) : bool := match get n g with Some (KSilent, e) => plain e | Some _ => false | None => true end.
  Definition quiet : bool := quiet1 "WHITESPACE" && quiet1 "COMMENT".

  Lemma plain_quiet a e b r k o : matches g a e b r k o -> a <> NonAtomic -> plain e = true -> forall c r' k' ts, o = Some (c, r', k', ts) -> ts = [].
  Proof.
    intros M. induction M; intros A P c0 r0' k0' ts0 E; cbn [plain] in P; try discriminate P; try discriminate E;
      try (injection E as <- <- <- <-; reflexivity).
    - apply andb_prop in P. destruct P as [P1 P2]. injection E as <- <- <- <-.
      rewrite (IHM1 A P1 _ _ _ _ eq_refl), (IHM2 A P2 _ _ _ _ eq_refl). reflexivity.
    - apply andb_prop in P. destruct P as [P1 P2]. eapply IHM; eauto.
    - apply andb_prop in P. destruct P as [P1 P2]. eapply IHM2; eauto.
    - eapply IHM; eauto.
    - injection E as <- <- <- <-. rewrite (IHM1 A P _ _ _ _ eq_refl), (IHM2 A P _ _ _ _ eq_refl). reflexivity.
    - injection E as <- <- <- <-. eapply IHM; eauto.
    - contradiction A. reflexivity.
  Qed.
  Lemma call_inv a n b r k o' : matches g a (Call n) b r k o' ->
    exists kd e o, get n g = Some (kd, e) /\ matches g (body_atom n kd a) e b r k o /\ o' = record_kind n kd a o.
  Proof. intros M. inversion M; subst. eauto 10. Qed.
  Lemma quiet_node n c r ts : implicit n = true -> quiet1 n = true -> node n NonAtomic c r ts -> ts = [].
  Proof.
    intros IM Q [b [k [k' M]]]. apply call_inv in M. destruct M as [kd [e [o [G [MB H]]]]].
    unfold quiet1 in Q. rewrite G in Q. destruct kd; try discriminate Q. cbn [record_kind] in H. subst o.
    assert (A : body_atom n KSilent NonAtomic = Atomic).
    { unfold implicit in IM. cbn [body_atom]. apply orb_prop in IM. destruct IM as [IM|IM]; rewrite eqb_true in IM; subst n; reflexivity. }
    rewrite A in MB. eapply plain_quiet; [exact MB | discriminate | exact Q | reflexivity].
  Qed.

  Lemma gap_nil : gap [].
  Proof. exists []. auto. Qed.
  Lemma gap_app a b : gap a -> gap b -> gap (a ++ b).
  Proof. intros [l [-> F]] [l' [-> F']]. exists (l ++ l'). rewrite concat_app. split; [reflexivity|]. apply Forall_app. auto. Qed.
  Lemma gap_one c : blank c -> gap c.
  Proof. intros B. exists [c]. cbn [List.concat]. rewrite app_nil_r. auto. Qed.
  Lemma reps_gap n Q c r ts : (n = "WHITESPACE" \/ n = "COMMENT")%string -> quiet1 n = true -> reps (node n NonAtomic) Q c r ts -> ts = [] /\ gap c.
  Proof.
    intros I QU R. induction R as [r _|c1 c2 r t1 t2 H _ [-> IH]]; [split; [reflexivity | apply gap_nil]|].
    assert (t1 = []) as -> by (eapply quiet_node; eauto; destruct I as [->| ->]; reflexivity).
    split; [reflexivity|]. apply gap_app; [|exact IH]. apply gap_one. exists (c2 ++ r). destruct I as [->| ->]; auto.
  Qed.

  Lemma skipped_gap e c r ts : quiet1 "WHITESPACE" = true -> quiet1 "COMMENT" = true -> skipped g e -> yes NonAtomic e c r ts -> ts = [] /\ gap c.
  Proof.
    intros QW QC S Y. destruct S as [_ _|_ _|_ _|_ _]; cbn [yes] in Y.
    - destruct Y as [-> ->]. split; [reflexivity | apply gap_nil].
    - eapply reps_gap in Y; eauto.
    - eapply reps_gap in Y; eauto.
    - destruct Y as [c1 [c2 [t1 [t2 [-> [-> [Y1 Y2]]]]]]]. eapply reps_gap in Y1; eauto. destruct Y1 as [-> G1]. cbn [app].
      assert (t2 = [] /\ gap c2) as [-> G2].
      { clear G1. induction Y2 as [r _|c3 c4 r t3 t4 H _ [-> IH]]; [split; [reflexivity | apply gap_nil]|].
        destruct H as [d1 [d2 [u1 [u2 [-> [-> [D1 D2]]]]]]]. eapply reps_gap in D2; eauto. destruct D2 as [-> D2].
        pose proof (quiet_node "COMMENT" _ _ _ eq_refl QC D1) as ->. split; [reflexivity|].
        apply gap_app; [|exact IH]. apply gap_app; [|exact D2]. apply gap_one. eexists. right. exact D1. }
      split; [reflexivity|]. apply gap_app; assumption.
  Qed.
  Lemma skipped_quiet e c r ts : quiet1 "WHITESPACE" = true -> quiet1 "COMMENT" = true -> skipped g e -> yes NonAtomic e c r ts -> ts = [].
  Proof. intros. eapply skipped_gap; eassumption. Qed.

  Definition says (a : atom) (e : expr) (r : text) (o : result) : Prop :=
    match o with Some (c, r', _, ts) => r = c ++ r' /\ yes a e c r' ts | None => no a e r end.
  Lemma matches_says_with (Q : forall e b r k c r' k' ts, skipped g e -> matches g NonAtomic e b r k (Some (c, r', k', ts)) -> yes NonAtomic e c r' ts -> ts = [])
    a e b r k o : matches g a e b r k o -> says a e r o.
  Proof.
    intros M. induction M; cbn [says yes no record] in *; auto.
    - split; [reflexivity|]. exists c. auto.
    - intros [=].
    - pose proof (m_call g a n kd e b r k o H M) as MC.
      assert (S : match record_kind n kd a o with Some (c, r', _, _) => r = c ++ r' | None => True end).
      { destruct o as [[[[c r'] k'] ts]|]; destruct kd; cbn [record_kind record]; cbn [says] in IHM; tauto. }
      destruct (record_kind n kd a o) as [[[[c r'] k'] ts]|]; cbn [says yes no].
      + subst r. split; [reflexivity|]. exists b, k, k'. exact MC.
      + exists b, k. exact MC.
    - destruct IHM1 as [-> Y1], IHM2 as [-> Y2]. split; [apply app_assoc|]. exists c1, c2, t1, t2. auto.
    - destruct IHM1 as [-> Y1]. right. exists c1, r1, t1. auto.
    - destruct x as [[[c r'] k'] ts]. destruct IHM as [-> Y]. auto.
    - destruct o as [[[[c r'] k'] ts]|]; cbn [says] in IHM2.
      + destruct IHM2 as [-> Y]. cbn [says yes]. auto.
      + cbn [says no]. auto.
    - destruct x as [[[c r'] k'] ts]. destruct IHM as [-> Y]. auto.
    - split; [reflexivity|]. apply reps_nil. exact IHM.
    - destruct IHM1 as [-> Y1], IHM2 as [-> Y2]. split; [apply app_assoc|]. apply reps_cons; assumption.
    - destruct x as [[[c r'] k'] ts]. destruct IHM as [-> Y]. exists c, r', ts. auto.
    - destruct o as [[[[c r'] k'] ts]|]; cbn [says] in IHM.
      + destruct IHM as [-> Y]. split; [reflexivity|]. cbn [yes].
        assert (ts = []) as -> by (eapply Q; eassumption). split; [reflexivity|].
        exists b, k, k'. eapply m_skip; eassumption.
      + cbn [no]. destruct H as [_ _|_ _|_ _|_ _]; cbn [no] in IHM.
        * apply (IHM r). reflexivity.
        * contradiction.
        * contradiction.
        * destruct IHM as [IHM|[? [? [? [? [? IHM]]]]]]; exact IHM.
    - split; [reflexivity|]. split; [reflexivity|]. destruct a; congruence.
  Qed.
  Lemma matches_says (Q : quiet = true) a e b r k o : matches g a e b r k o -> says a e r o.
  Proof.
    apply andb_prop in Q. destruct Q as [QW QC]. apply matches_says_with. intros e' b' r' k' c' r'' k'' ts S _. apply skipped_quiet; assumption.
  Qed.

  Lemma skips_inv (Q : quiet = true) c r : skips c r -> exists e, skipped g e /\ yes NonAtomic e c r [].
  Proof.
    intros [b [k [k' M]]]. inversion M as [| | | | | | | | | | | | | | | | | | | | | | | | |? ? ? ? ? SK M'|]; subst.
    - exists e. split; [exact SK|]. apply (matches_says Q) in M'. apply M'.
    - contradiction.
  Qed.
  Lemma skips_gap (Q : quiet = true) c r : skips c r -> gap c.
  Proof.
    intros S. apply (skips_inv Q) in S. destruct S as [e [S Y]]. apply andb_prop in Q. destruct Q as [QW QC].
    eapply skipped_gap in Y; eauto. tauto.
  Qed.
  Lemma node_inv (Q : quiet = true) n a c r ts : node n a c r ts -> forall kd e, get n g = Some (kd, e) ->
    exists ts', yes (body_atom n kd a) e c r ts' /\
      ts = match kd with KSilent => ts' | KCompound => [T n c ts'] | _ => match a with Atomic => ts' | _ => [T n c ts'] end end.
  Proof.
    intros [b [k [k' M]]] kd e G. apply call_inv in M. destruct M as [kd' [e' [o [G' [MB X]]]]].
    rewrite G in G'. injection G' as <- <-. apply (matches_says Q) in MB.
    destruct o as [[[[c' r'] k''] ts']|]; [|destruct kd; discriminate X]. exists ts'.
    destruct MB as [_ Y]. destruct kd; cbn [record_kind record] in X; injection X as -> -> -> <-; auto.
  Qed.
  Lemma nonode_inv (Q : quiet = true) n a r : nonode n a r -> forall kd e, get n g = Some (kd, e) -> no (body_atom n kd a) e r.
  Proof.
    intros [b [k M]] kd e G. apply call_inv in M. destruct M as [kd' [e' [o [G' [MB X]]]]].
    rewrite G in G'. injection G' as <- <-. apply (matches_says Q) in MB.
    destruct o as [[[[c' r'] k''] ts']|]; [destruct kd; discriminate X | exact MB].
  Qed.
  Lemma parse_node start t c r k ts : parse g start t = Ok c r k ts -> t = c ++ r /\ node start NonAtomic c r ts.
  Proof.
    intros E. pose proof (run_splits _ _ _ _ _ _ _ _ _ _ _ E) as ->. split; [reflexivity|].
    exists true, [], k. pose proof (run_sound g (S (List.length g)) start NonAtomic true (c ++ r) []) as S.
    unfold parse in E. rewrite E in S. apply S. reflexivity.
  Qed.
End Lang.
