(** What a match says about the pairs: the tool for proofs about the functions that walk them. *)
From Verif Require Import Base Peg Grammars SpecPeg PegProofs PegLang Trees.
Local Open Scope string_scope.
Local Open Scope list_scope.

Section Tree.
  Variable g : grammar.

  (** [e] yields no pairs *)
  Fixpoint leaf (d : nat) : atom -> expr -> bool :=
    fix lf (a : atom) (e : expr) {struct e} : bool :=
      match e with
      | Str _ | Sat _ | SOI | Not _ | Pop | Skip => true
      | EOI => match a with Atomic => true | _ => false end
      | Call n =>
        match d, get n g with
        | S d, Some (kd, e) =>
          match kd, a with
          | KSilent, _ | KNormal, Atomic | KAtomic, Atomic => leaf d (body_atom n kd a) e
          | _, _ => false
          end
        | _, _ => false
        end
      | Then x y | Alt x y => lf a x && lf a y
      | Opt x | Many x | Push x => lf a x
      end.
  Definition tacit1 (n : string) : bool := match get n g with Some _ => leaf 5 NonAtomic (Call n) | None => true end.
  (** white space and comments yield no pairs *)
  Definition tacit : bool := tacit1 "WHITESPACE" && tacit1 "COMMENT".

  Lemma tacit_call n : tacit1 n = true -> defined g n -> leaf 5 NonAtomic (Call n) = true.
  Proof.
    unfold tacit1, defined. destruct (get n g) eqn:G; [auto|]. intros _ D. apply get_None in G. contradiction.
  Qed.
  Lemma tacit_skipped e : tacit = true -> skipped g e -> leaf 5 NonAtomic e = true.
  Proof.
    intros Q. apply andb_prop in Q. destruct Q as [QW QC].
    destruct 1 as [D D'|D D'|D D'|D D'].
    - reflexivity.
    - exact (tacit_call _ QW D).
    - exact (tacit_call _ QC D').
    - change (leaf 5 NonAtomic (Call "WHITESPACE") && (leaf 5 NonAtomic (Call "COMMENT") && leaf 5 NonAtomic (Call "WHITESPACE")) = true).
      rewrite (tacit_call _ QW D), (tacit_call _ QC D'). reflexivity.
  Qed.

  Lemma leaf_sound (Q : tacit = true) a e b r k o : matches g a e b r k o ->
    forall d, leaf d a e = true -> forall c r' k' ts, o = Some (c, r', k', ts) -> ts = [].
  Proof.
    intros M. induction M; intros d L c0 r0 k0 ts0 E; try discriminate E;
      try (injection E as <- <- <- <-; reflexivity).
    - destruct a; cbn [record] in E; [destruct d; discriminate L ..|]. injection E as <- <- <- <-. reflexivity.
    - destruct d as [|d]; [discriminate L|]. cbn [leaf] in L. rewrite H in L.
      destruct o as [[[[c1 r1] k1] t1]|]; [|destruct kd; discriminate E].
      destruct kd, a; try discriminate L; cbn [record_kind record] in E; injection E as <- <- <- <-;
        exact (IHM d L _ _ _ _ eq_refl).
    - assert (leaf d a e1 = true /\ leaf d a e2 = true) as [L1 L2] by (apply andb_prop; destruct d; exact L).
      injection E as <- <- <- <-. rewrite (IHM1 d L1 _ _ _ _ eq_refl), (IHM2 d L2 _ _ _ _ eq_refl). reflexivity.
    - assert (leaf d a e1 = true /\ leaf d a e2 = true) as [L1 L2] by (apply andb_prop; destruct d; exact L).
      exact (IHM d L1 _ _ _ _ E).
    - assert (leaf d a e1 = true /\ leaf d a e2 = true) as [L1 L2] by (apply andb_prop; destruct d; exact L).
      exact (IHM2 d L2 _ _ _ _ E).
    - assert (leaf d a e = true) as L1 by (destruct d; exact L). exact (IHM d L1 _ _ _ _ E).
    - assert (leaf d a e = true) as L1 by (destruct d; exact L).
      injection E as <- <- <- <-. rewrite (IHM1 d L1 _ _ _ _ eq_refl), (IHM2 d L _ _ _ _ eq_refl). reflexivity.
    - assert (leaf d a e = true) as L1 by (destruct d; exact L). injection E as <- <- <- <-. exact (IHM d L1 _ _ _ _ eq_refl).
    - exact (IHM 5 (tacit_skipped _ Q H) _ _ _ _ E).
  Qed.

  Lemma matches_says_t (Q : tacit = true) a e b r k o : matches g a e b r k o -> says g a e r o.
  Proof.
    apply matches_says_with. intros e' b' r' k' c' r'' k'' ts S M _. exact (leaf_sound Q _ _ _ _ _ _ M 5 (tacit_skipped _ Q S) _ _ _ _ eq_refl).
  Qed.

  (** [gives a e c ts]: somewhere in a run, [e] matched [c] and yielded [ts] *)
  Definition gives (a : atom) (e : expr) (c : text) (ts : list tree) : Prop :=
    exists b r k r' k', matches g a e b r k (Some (c, r', k', ts)).
  (** [born a n t]: [t] is a pair of the rule [n] *)
  Definition born (a : atom) (n : string) (t : tree) : Prop := rule_of t = n /\ gives a (Call n) (text_of t) [t].

  (** the pairs of a match *)
  Fixpoint shape (d : nat) : atom -> expr -> list tree -> Prop :=
    fix sh (a : atom) (e : expr) (ts : list tree) {struct e} : Prop :=
      match e with
      | EOI => ts = match a with Atomic => [] | _ => [T "EOI" [] []] end
      | Call n =>
        if leaf 5 a (Call n) then ts = [] else
        match get n g with
        | Some (KSilent, e) => match d with S d => shape d (body_atom n KSilent a) e ts | O => exists c, gives a (Call n) c ts end
        | Some (kd, _) =>
          match kd, a with KNormal, Atomic | KAtomic, Atomic => exists c, gives a (Call n) c ts | _, _ => exists t, ts = [t] /\ born a n t end
        | None => False
        end
      | Then x y =>
        if leaf 5 a x then if leaf 5 a y then ts = [] else sh a y ts
        else if leaf 5 a y then sh a x ts
        else exists t1 t2, ts = t1 ++ t2 /\ sh a x t1 /\ sh a y t2
      | Alt x y => sh a x ts \/ sh a y ts
      | Opt x => if leaf 5 a x then ts = [] else ts = [] \/ sh a x ts
      | Many x => if leaf 5 a x then ts = [] else exists l, ts = List.concat l /\ Forall (sh a x) l
      | Push x => sh a x ts
      | Str _ | Sat _ | SOI | Not _ | Pop | Skip => ts = []
      end.

  Lemma shape_Then d a x y ts : shape d a (Then x y) ts =
    (if leaf 5 a x then if leaf 5 a y then ts = [] else shape d a y ts
     else if leaf 5 a y then shape d a x ts
     else exists t1 t2, ts = t1 ++ t2 /\ shape d a x t1 /\ shape d a y t2).
  Proof. destruct d; reflexivity. Qed.
  Lemma shape_Opt d a x ts : shape d a (Opt x) ts = if leaf 5 a x then ts = [] else ts = [] \/ shape d a x ts.
  Proof. destruct d; reflexivity. Qed.
  Lemma shape_Many d a x ts : shape d a (Many x) ts =
    if leaf 5 a x then ts = [] else exists l, ts = List.concat l /\ Forall (shape d a x) l.
  Proof. destruct d; reflexivity. Qed.

  Lemma call_shape a n b r k o : matches g a (Call n) b r k o ->
    forall c r' k' ts, o = Some (c, r', k', ts) -> forall kd e, get n g = Some (kd, e) -> kd <> KSilent -> a <> Atomic \/ kd = KCompound ->
    exists t, ts = [t] /\ born a n t.
  Proof.
    intros M c r' k' ts -> kd e G K A. pose proof M as M0. apply call_inv in M. destruct M as [kd' [e' [o [G' [MB X]]]]].
    rewrite G in G'. injection G' as <- <-. destruct o as [[[[c' r1] k1] t1]|]; [|destruct kd; discriminate X].
    exists (T n c t1). unfold born, gives. cbn [rule_of text_of].
    destruct kd; [| contradiction K; reflexivity | |]; cbn [record_kind record] in X;
      [destruct a; [| | destruct A as [A|A]; [contradiction A; reflexivity | discriminate A]] .. |];
      injection X as <- <- <- ->; (split; [reflexivity|]; split; [reflexivity|]); repeat eexists; exact M0.
  Qed.

  Lemma matches_shape (Q : tacit = true) d : forall e a b r k o, matches g a e b r k o ->
    forall c r' k' ts, o = Some (c, r', k', ts) -> shape d a e ts.
  Proof.
    induction d as [d IHd] using lt_wf_ind. induction e as [s|f| | |n|x IHx y IHy|x IHx y IHy|x IHx|x IHx|x IHx|x IHx| |]; intros a b r k o M c r' k' ts E.
    - subst. inversion M; subst. destruct d; reflexivity.
    - subst. inversion M; subst. destruct d; reflexivity.
    - subst. inversion M; subst. destruct d; reflexivity.
    - subst. inversion M; subst; destruct d, a; cbn [record] in *; congruence.
    - subst. pose proof M as M0. pose proof (fun L => leaf_sound Q _ _ _ _ _ _ M 5 L _ _ _ _ eq_refl) as L.
      assert (X : (if leaf 5 a (Call n) then ts = [] else
        match get n g with
        | Some (KSilent, e) => match d with S d => shape d (body_atom n KSilent a) e ts | O => exists c, gives a (Call n) c ts end
        | Some (kd, _) =>
          match kd, a with KNormal, Atomic | KAtomic, Atomic => exists c, gives a (Call n) c ts | _, _ => exists t, ts = [t] /\ born a n t end
        | None => False
        end)); [|destruct d; exact X].
      destruct (leaf 5 a (Call n)) eqn:LF; [apply L; reflexivity|].
      apply call_inv in M. destruct M as [kd [e' [o [G [MB X]]]]]. rewrite G.
      destruct o as [[[[c1 r1] k1] t1]|]; [|destruct kd; discriminate X].
      assert (GV : exists c, gives a (Call n) c ts) by (exists c; repeat eexists; exact M0).
      destruct kd.
      + destruct a; [| |exact GV]; apply (call_shape _ _ _ _ _ _ M0 _ _ _ _ eq_refl _ _ G); try discriminate; left; discriminate.
      + cbn [record_kind] in X. injection X as <- <- <- <-. destruct d as [|d]; [exact GV|].
        exact (IHd d (Nat.lt_succ_diag_r d) _ _ _ _ _ _ MB _ _ _ _ eq_refl).
      + destruct a; [| |exact GV]; apply (call_shape _ _ _ _ _ _ M0 _ _ _ _ eq_refl _ _ G); try discriminate; left; discriminate.
      + apply (call_shape _ _ _ _ _ _ M0 _ _ _ _ eq_refl _ _ G); [discriminate|]. right. reflexivity.
    - subst. inversion M as [| | | | | | | | | |? ? ? ? ? ? ? c1 r1 k1 t1 c2 r2 k2 t2 M1 B M2| | | | | | | | | | | | | | | |]; subst.
      assert (X : (if leaf 5 a x then if leaf 5 a y then t1 ++ t2 = [] else shape d a y (t1 ++ t2)
        else if leaf 5 a y then shape d a x (t1 ++ t2)
        else exists u1 u2, t1 ++ t2 = u1 ++ u2 /\ shape d a x u1 /\ shape d a y u2)); [|destruct d; exact X].
      destruct (leaf 5 a x) eqn:Lx; [|destruct (leaf 5 a y) eqn:Ly].
      + rewrite (leaf_sound Q _ _ _ _ _ _ M1 5 Lx _ _ _ _ eq_refl). cbn [app].
        destruct (leaf 5 a y) eqn:Ly; [exact (leaf_sound Q _ _ _ _ _ _ M2 5 Ly _ _ _ _ eq_refl) | exact (IHy _ _ _ _ _ M2 _ _ _ _ eq_refl)].
      + rewrite (leaf_sound Q _ _ _ _ _ _ M2 5 Ly _ _ _ _ eq_refl), app_nil_r. exact (IHx _ _ _ _ _ M1 _ _ _ _ eq_refl).
      + exists t1, t2. split; [reflexivity|]. split; [exact (IHx _ _ _ _ _ M1 _ _ _ _ eq_refl) | exact (IHy _ _ _ _ _ M2 _ _ _ _ eq_refl)].
    - subst. enough (X : shape d a x ts \/ shape d a y ts) by (destruct d; exact X). inversion M; subst; [left; eapply IHx | right; eapply IHy]; eauto.
    - subst. enough (X : if leaf 5 a x then ts = [] else ts = [] \/ shape d a x ts) by (destruct d; exact X).
      destruct (leaf 5 a x) eqn:Lx; inversion M; subst; auto; [eapply leaf_sound | right; eapply IHx]; eauto.
    - enough (X : if leaf 5 a x then ts = [] else exists l, ts = List.concat l /\ Forall (shape d a x) l) by (destruct d; exact X).
      destruct (leaf 5 a x) eqn:Lx; [subst; exact (leaf_sound Q _ _ _ _ _ _ M 5 Lx _ _ _ _ eq_refl)|].
      remember (Many x) as e eqn:Ee. revert c r' k' ts E. induction M; intros c0 r0' k0' ts0 E; try discriminate Ee; injection Ee as ->; injection E as <- <- <- <-.
      + exists []. split; [reflexivity | constructor].
      + destruct (IHM2 eq_refl Lx _ _ _ _ eq_refl) as [l [-> F]]. exists (t1 :: l). split; [reflexivity|]. constructor; [|exact F].
        exact (IHx _ _ _ _ _ M1 _ _ _ _ eq_refl).
    - subst. inversion M; subst. destruct d; reflexivity.
    - subst. inversion M; subst. enough (X : shape d a x ts) by (destruct d; exact X). eapply IHx; eauto.
    - subst. inversion M; subst. destruct d; reflexivity.
    - subst. enough (X : ts = []) by (destruct d; exact X). exact (leaf_sound Q _ _ _ _ _ _ M 1 eq_refl _ _ _ _ eq_refl).
  Qed.

  Lemma gives_yes (Q : tacit = true) a e c ts : gives a e c ts -> exists r, yes g a e c r ts.
  Proof.
    intros [b [r [k [r' [k' M]]]]]. apply (matches_says_t Q) in M. exists r'. apply M.
  Qed.
  Lemma gives_shape (Q : tacit = true) d a e c ts : gives a e c ts -> shape d a e ts.
  Proof. intros [b [r [k [r' [k' M]]]]]. exact (matches_shape Q d _ _ _ _ _ _ M _ _ _ _ eq_refl). Qed.

  (** the inner pairs of a pair *)
  Lemma born_gives a n t : born a n t -> forall kd e, get n g = Some (kd, e) -> kd <> KSilent ->
    a <> Atomic \/ kd = KCompound -> gives (body_atom n kd a) e (text_of t) (kids_of t).
  Proof.
    intros [R [b [r [k [r' [k' M]]]]]] kd e G K A. apply call_inv in M. destruct M as [kd' [e' [o [G' [MB X]]]]].
    rewrite G in G'. injection G' as <- <-. destruct o as [[[[c' r1] k1] t1]|]; [|destruct kd; discriminate X].
    destruct kd; [| contradiction K; reflexivity | |]; cbn [record_kind record] in X;
      [destruct a; [| | destruct A as [A|A]; [contradiction A; reflexivity | discriminate A]] .. |];
      injection X as _ _ _ ->; repeat eexists; exact MB.
  Qed.
  Lemma born_kids (Q : tacit = true) d a n t : born a n t -> forall kd e, get n g = Some (kd, e) -> kd <> KSilent ->
    a <> Atomic \/ kd = KCompound -> shape d (body_atom n kd a) e (kids_of t).
  Proof. intros B kd e G K A. exact (gives_shape Q d _ _ _ _ (born_gives _ _ _ B _ _ G K A)). Qed.

  (** the text of a pair *)
  Lemma born_yes (Q : tacit = true) a n t : born a n t -> forall kd e, get n g = Some (kd, e) -> kd <> KSilent -> a <> Atomic ->
    exists r, yes g (body_atom n kd a) e (text_of t) r (kids_of t).
  Proof.
    intros B kd e G K A. apply (gives_yes Q). apply (born_gives a n t B kd e G K). left. exact A.
  Qed.

  (** repetitions *)
  Lemma shape_star d a e ts : leaf 5 a e = false -> shape d a (Star e) ts -> exists l, ts = List.concat l /\ Forall (shape d a e) l.
  Proof.
    intros L H. unfold Star in H.
    assert (L2 : leaf 5 a (Then Skip e) = false) by exact L.
    assert (L3 : leaf 5 a (Many (Then Skip e)) = false) by exact L.
    assert (L1 : leaf 5 a (Then e (Many (Then Skip e))) = false) by (change (leaf 5 a e && leaf 5 a (Then Skip e) = false); rewrite L; reflexivity).
    rewrite shape_Opt, L1 in H. destruct H as [->|H]; [exists []; split; [reflexivity|constructor]|].
    rewrite shape_Then, L, L3 in H. destruct H as [t1 [t2 [-> [S1 S2]]]].
    rewrite shape_Many, L2 in S2. destruct S2 as [l [-> F]]. exists (t1 :: l). split; [reflexivity|]. constructor; [exact S1|].
    eapply Forall_impl; [|exact F]. intros u U. rewrite shape_Then in U. change (leaf 5 a Skip) with true in U. rewrite L in U. exact U.
  Qed.
  Lemma shape_plus d a e ts : leaf 5 a e = false -> shape d a (Plus e) ts -> exists l, l <> [] /\ ts = List.concat l /\ Forall (shape d a e) l.
  Proof.
    intros L H. unfold Plus, Seq in H.
    assert (L0 : leaf 5 a (Star e) = false) by (change (leaf 5 a e && leaf 5 a (Then Skip e) = false); rewrite L; reflexivity).
    assert (L1 : leaf 5 a (Then Skip (Star e)) = false) by exact L0.
    rewrite shape_Then, L, L1 in H. destruct H as [t1 [t2 [-> [S1 S2]]]].
    rewrite shape_Then, L0 in S2. change (leaf 5 a Skip) with true in S2.
    apply (shape_star _ _ _ _ L) in S2. destruct S2 as [l [-> F]]. exists (t1 :: l). split; [discriminate|]. split; [reflexivity|].
    constructor; [exact S1|exact F].
  Qed.

  (** the pairs of a whole parse *)
  Lemma top_kids (Q : tacit = true) d start t kids : top g start t = Ret kids ->
    forall kd e, get start g = Some (kd, e) -> kd <> KSilent -> shape d (body_atom start kd NonAtomic) e kids /\
      exists c, gives (body_atom start kd NonAtomic) e c kids.
  Proof.
    unfold top, pairs. destruct (parse g start t) as [c r k ts| | |] eqn:P; intros E kd e G K; try discriminate E.
    apply parse_node in P. destruct P as [-> [b [k0 [k' M]]]].
    destruct (call_shape _ _ _ _ _ _ M _ _ _ _ eq_refl _ _ G K) as [x [-> B]]; [left; discriminate|].
    walk_in E. injection E as <-. split.
    - destruct x as [n s l]. apply (born_kids Q d _ _ _ B _ _ G K). left. discriminate.
    - exists (text_of x). destruct x as [n s l]. apply (born_gives _ _ _ B _ _ G K). left. discriminate.
  Qed.
End Tree.

Lemma shape_rule g d a n ts : (a <> Atomic) -> forall kd e, get n g = Some (kd, e) -> kd <> KSilent -> shape g d a (Call n) ts ->
  leaf g 5 a (Call n) = false -> exists t, ts = [t] /\ born g a n t.
Proof.
  intros A kd e G K H L.
  assert (X : if leaf g 5 a (Call n) then ts = [] else
        match get n g with
        | Some (KSilent, e) => match d with S d => shape g d (body_atom n KSilent a) e ts | O => exists c, gives g a (Call n) c ts end
        | Some (kd, _) =>
          match kd, a with KNormal, Atomic | KAtomic, Atomic => exists c, gives g a (Call n) c ts | _, _ => exists t, ts = [t] /\ born g a n t end
        | None => False
        end) by (destruct d; exact H).
  rewrite L, G in X. destruct kd, a; congruence.
Qed.
Lemma shape_silent g d a n ts : forall e, get n g = Some (KSilent, e) -> shape g (S d) a (Call n) ts ->
  leaf g 5 a (Call n) = false -> shape g d (body_atom n KSilent a) e ts.
Proof.
  intros e G H L. cbn [shape] in H. rewrite L, G in H. exact H.
Qed.
Lemma shape_Alt g d a x y ts : shape g d a (Alt x y) ts = (shape g d a x ts \/ shape g d a y ts).
Proof. destruct d; reflexivity. Qed.
Lemma Forall_flat {A} (P : A -> Prop) l : Forall (fun u => u = [] \/ exists t, u = [t] /\ P t) l -> Forall P (List.concat l).
Proof.
  induction 1 as [|u l H _ IH]; [constructor|]. cbn [List.concat]. apply Forall_app. split; [|exact IH].
  destruct H as [->|[t [-> H]]]; auto.
Qed.
Lemma shape_then_ff g d a x y ts : leaf g 5 a x = false -> leaf g 5 a y = false -> shape g d a (Then x y) ts ->
  exists t1 t2, ts = t1 ++ t2 /\ shape g d a x t1 /\ shape g d a y t2.
Proof. intros X Y. rewrite shape_Then, X, Y. auto. Qed.
Lemma shape_then_tf g d a x y ts : leaf g 5 a x = true -> leaf g 5 a y = false -> shape g d a (Then x y) ts -> shape g d a y ts.
Proof. intros X Y. rewrite shape_Then, X, Y. auto. Qed.
Lemma shape_then_ft g d a x y ts : leaf g 5 a x = false -> leaf g 5 a y = true -> shape g d a (Then x y) ts -> shape g d a x ts.
Proof. intros X Y. rewrite shape_Then, X, Y. auto. Qed.
Lemma shape_then_tt g d a x y ts : leaf g 5 a x = true -> leaf g 5 a y = true -> shape g d a (Then x y) ts -> ts = [].
Proof. intros X Y. rewrite shape_Then, X, Y. auto. Qed.
Lemma shape_opt_t g d a x ts : leaf g 5 a x = true -> shape g d a (Opt x) ts -> ts = [].
Proof. intros X. rewrite shape_Opt, X. auto. Qed.
Lemma shape_opt_f g d a x ts : leaf g 5 a x = false -> shape g d a (Opt x) ts -> ts = [] \/ shape g d a x ts.
Proof. intros X. rewrite shape_Opt, X. auto. Qed.
Lemma shape_push g d a x ts : shape g d a (Push x) ts -> shape g d a x ts.
Proof. destruct d; auto. Qed.
(** looking a rule up quickly *)
Fixpoint find_rule (n : string) (g : grammar) : option (kind * expr) :=
  match g with [] => None | (m, b) :: g => if String.eqb n m then Some b else find_rule n g end.
Lemma find_get n g : find_rule n g = get n g.
Proof.
  induction g as [|[m b] g IH]; [reflexivity|]. cbn [find_rule get]. rewrite IH. destruct (String.eqb_spec n m) as [E|E], (eq_dec n m); congruence.
Qed.
Lemma find_get_eq n g b : find_rule n g = b -> get n g = b.
Proof. rewrite find_get. auto. Qed.
Ltac rule_body n g :=
  match eval cbv beta iota zeta delta [find_rule g app base Grammars.symbol_rule String.eqb Ascii.eqb Bool.eqb] in (find_rule n g) with Some ?b => b end.
Ltac rule_eq := apply find_get_eq; match goal with |- find_rule _ ?g = _ => cbv beta iota zeta delta [find_rule g app base Grammars.symbol_rule String.eqb Ascii.eqb Bool.eqb]; reflexivity end.
Tactic Notation "swap" hyp(H) uconstr(t) := let H' := fresh in pose proof t as H'; clear H; rename H' into H.
(** Unfolds a [shape] hypothesis; repetitions of what yields pairs stay. *)
Ltac shp H :=
  match type of H with
  | shape ?g ?d ?a (Seq ?x ?y) ?ts => unfold Seq in H; shp H
  | shape ?g ?d ?a (Then ?x ?y) ?ts =>
    let bx := eval vm_compute in (leaf g 5 a x) in let by_ := eval vm_compute in (leaf g 5 a y) in
    lazymatch bx with
    | true => lazymatch by_ with
      | true => swap H (shape_then_tt g d a x y ts ltac:(vm_compute; reflexivity) ltac:(vm_compute; reflexivity) H)
      | false => swap H (shape_then_tf g d a x y ts ltac:(vm_compute; reflexivity) ltac:(vm_compute; reflexivity) H); shp H end
    | false => lazymatch by_ with
      | true => swap H (shape_then_ft g d a x y ts ltac:(vm_compute; reflexivity) ltac:(vm_compute; reflexivity) H); shp H
      | false =>
        swap H (shape_then_ff g d a x y ts ltac:(vm_compute; reflexivity) ltac:(vm_compute; reflexivity) H);
        let t1 := fresh "ts" in let t2 := fresh "ts" in let E := fresh "E" in let H1 := fresh H in
        destruct H as [t1 [t2 [E [H1 H]]]]; shp H1; shp H end
    end
  | shape ?g ?d ?a (Opt ?x) ?ts =>
    let bx := eval vm_compute in (leaf g 5 a x) in
    lazymatch bx with
    | true => swap H (shape_opt_t g d a x ts ltac:(vm_compute; reflexivity) H)
    | false => swap H (shape_opt_f g d a x ts ltac:(vm_compute; reflexivity) H) end
  | shape ?g ?d ?a (Call ?n) ?ts =>
    let b := rule_body n g in
    let kd := eval hnf in (fst b) in let e := eval cbv [snd] in (snd b) in
    lazymatch kd with
    | KSilent => idtac
    | _ =>
      first [ swap H (shape_rule g d a n ts ltac:(discriminate) kd e ltac:(rule_eq) ltac:(discriminate) H ltac:(vm_compute; reflexivity));
              let t := fresh "t" in let E := fresh "E" in destruct H as [t [E H]]
            | idtac ]
    end
  | shape ?g ?d ?a (Push ?x) ?ts => swap H (shape_push g d a x ts H); shp H
  | shape ?g ?d ?a EOI ?ts => change (ts = [T "EOI" [] []]) in H
  | _ => idtac
  end.
Lemma born_shape g (Q : tacit g = true) d n t : born g NonAtomic n t -> forall e, get n g = Some (KNormal, e) ->
  body_atom n KNormal NonAtomic = NonAtomic -> shape g d NonAtomic e (kids_of t).
Proof. intros B e G A. rewrite <- A. apply (born_kids g Q d NonAtomic n t B KNormal e G); [discriminate | left; discriminate]. Qed.
(** [kids B as S]: the inner pairs of a pair *)
Tactic Notation "kids" hyp(B) "as" ident(S) :=
  match type of B with
  | born ?g ?a ?n ?t =>
    let b := rule_body n g in let e := eval cbv [snd] in (snd b) in let kd := eval hnf in (fst b) in
    pose proof (born_kids g ltac:(vm_compute; reflexivity) 6 a n t B kd e ltac:(rule_eq) ltac:(discriminate) ltac:(left; first [assumption | discriminate])) as S;
    let x := eval cbv in (body_atom n kd a) in change (body_atom n kd a) with x in S;
    cbn [kids_of] in S; shp S; subst; cbn [app] in *
  end.
(** unfolds a call of a silent rule, and the alternatives in it *)
Ltac sil U :=
  match type of U with
  | shape ?g (S ?d) ?a (Call ?n) ?ts =>
    let b := rule_body n g in let e := eval cbv [snd] in (snd b) in
    swap U (shape_silent g d a n ts e ltac:(rule_eq) U ltac:(vm_compute; reflexivity));
    match type of U with shape _ _ ?b _ _ => let c := eval vm_compute in b in change b with c in U end
  end; shp U.
Lemma shape_alt g d a x y ts : shape g d a (Alt x y) ts -> shape g d a x ts \/ shape g d a y ts.
Proof. rewrite shape_Alt. auto. Qed.
Ltac alts U :=
  lazymatch type of U with
  | shape ?g ?d ?a (Alt ?x ?y) ?ts => swap U (shape_alt g d a x y ts U); destruct U as [U|U]; [shp U | alts U]
  | _ => shp U
  end.
(** pairs without inner pairs *)
Lemma born_leaf g (Q : tacit g = true) a n t : born g a n t -> forall kd e, get n g = Some (kd, e) -> kd <> KSilent ->
  a <> Atomic \/ kd = KCompound -> leaf g 5 (body_atom n kd a) e = true -> kids_of t = [].
Proof.
  intros B kd e E K A L. destruct (born_gives g a n t B kd e E K A) as [b [r [k [r' [k' M]]]]]. exact (leaf_sound g Q _ _ _ _ _ _ M 5 L _ _ _ _ eq_refl).
Qed.
(** [bare B]: the pair of [B] is [T n s []] *)
Ltac bare B :=
  match type of B with
  | born ?g ?a ?n ?t =>
    let b := rule_body n g in let e := eval cbv [snd] in (snd b) in let kd := eval hnf in (fst b) in
    let K := fresh "LK" in
    pose proof (born_leaf g ltac:(vm_compute; reflexivity) a n t B kd e ltac:(rule_eq) ltac:(discriminate) ltac:(left; first [assumption | discriminate]) ltac:(vm_compute; reflexivity)) as K;
    let R := fresh "LR" in pose proof (proj1 B) as R; clear B;
    let m := fresh "n" in let s := fresh "s" in let k := fresh "k" in destruct t as [m s k]; cbn [rule_of kids_of text_of] in *; subst m k
  end.
