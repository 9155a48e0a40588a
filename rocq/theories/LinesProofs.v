(** Proofs about merged lines. *)
From Verif Require Import Base Float FloatOrder Colours Locations Maps SctData Lines SpecLines.

Lemma SFeqb_cases x y : SFeqb x y = true -> x = y \/ exists s s', x = S754_zero s /\ y = S754_zero s'.
Proof.
  unfold SFeqb, SFcompare. destruct x as [s|s| |s m e], y as [s'|s'| |s' m' e']; try discriminate; try (intros; right; eauto; fail);
    destruct s, s'; try discriminate; intros H; try (left; reflexivity); try (right; eauto; fail).
  - destruct (Z.compare_spec e e'); try discriminate. subst. destruct (Pos.compare_cont Eq m m') eqn:C; try discriminate.
    apply Pos.compare_eq in C. subst. left; reflexivity.
  - destruct (Z.compare_spec e e'); try discriminate. subst. destruct (Pos.compare_cont Eq m m') eqn:C; try discriminate.
    apply Pos.compare_eq in C. subst. left; reflexivity.
Qed.
Lemma SFeqb_refl_l x y : SFeqb x y = true -> SFeqb x x = true.
Proof.
  unfold SFeqb, SFcompare. destruct x as [s|s| |s m e], y as [s'|s'| |s' m' e']; try discriminate; try reflexivity;
    destruct s; try discriminate; try reflexivity; rewrite Z.compare_refl; change (Pos.compare_cont Eq m m) with (Pos.compare m m);
    rewrite Pos.compare_refl; reflexivity.
Qed.
Lemma SFeqb_euclid x y z : SFeqb x y = true -> SFeqb x z = true -> SFeqb y z = true.
Proof.
  intros A B. destruct (SFeqb_cases _ _ A) as [->|[s [s' [-> ->]]]]; [exact B|].
  destruct (SFeqb_cases _ _ B) as [<-|[s1 [s1' [E ->]]]]; reflexivity.
Qed.
Lemma SFeqb_trans x y z : SFeqb x y = true -> SFeqb y z = true -> SFeqb x z = true.
Proof.
  intros A B. destruct (SFeqb_cases _ _ A) as [->|[s [s' [-> ->]]]]; [exact B|].
  destruct (SFeqb_cases _ _ B) as [<-|[s1 [s1' [E ->]]]]; reflexivity.
Qed.

Lemma loc_eqb_same a b : loc_eqb a b = true <-> same_place a b.
Proof.
  destruct a, b; cbn; try (split; [discriminate | tauto]).
  - unfold point_eqb, feqb, px, py. apply andb_true_iff.
  - apply eqb_true.
Qed.
Lemma loc_eqb_diff a b : loc_eqb a b = false <-> ~ same_place a b.
Proof. rewrite <- loc_eqb_same. destruct (loc_eqb a b); split; congruence. Qed.
Lemma same_euclid a b c : same_place a b -> same_place a c -> same_place b c.
Proof.
  destruct a, b, c; cbn; try tauto; [|congruence].
  intros [A B] [C D]. split; eapply SFeqb_euclid; eassumption.
Qed.
Lemma same_trans a b c : same_place a b -> same_place b c -> same_place a c.
Proof.
  destruct a, b, c; cbn; try tauto; [|congruence].
  intros [A B] [C D]. split; eapply SFeqb_trans; eassumption.
Qed.

Lemma segments_snoc l p e : segments (l ++ [p; e]) = segments (l ++ [p]) ++ [(p, e)].
Proof.
  induction l as [|x l IH]; [reflexivity|]. destruct l as [|y l]; [reflexivity|].
  cbn [app] in *. change (segments (x :: y :: l ++ [p; e])) with ((x, y) :: segments (y :: l ++ [p; e])).
  change (segments (x :: y :: l ++ [p])) with ((x, y) :: segments (y :: l ++ [p])). rewrite IH. reflexivity.
Qed.

Lemma rev_cases {A} (l : list A) : (l = [] /\ rev l = []) \/ exists l' x, l = l' ++ [x] /\ rev l = x :: rev l'.
Proof.
  destruct (rev l) as [|x r] eqn:E.
  - left. split; [|reflexivity]. rewrite <- (rev_involutive l), E. reflexivity.
  - right. exists (rev r), x. rewrite rev_involutive. split; [|reflexivity]. rewrite <- (rev_involutive l), E. reflexivity.
Qed.
Lemma set_last_app {A} (l : list A) x y : set_last (l ++ [x]) y = l ++ [y].
Proof. unfold set_last. rewrite removelast_last. reflexivity. Qed.

Lemma chained_snoc {A} (R : A -> A -> Prop) l x y : chained R (l ++ [x]) -> R x y -> chained R (l ++ [x; y]).
Proof.
  intros C H a u v b E. destruct (rev_cases b) as [[-> _]|[b' [z [-> _]]]].
  - change (l ++ [x; y]) with (l ++ [x] ++ [y]) in E. rewrite app_assoc in E.
    replace (a ++ [u; v]) with ((a ++ [u]) ++ [v]) in E by (rewrite <- app_assoc; reflexivity).
    apply app_inj_tail in E. destruct E as [E <-]. apply app_inj_tail in E. destruct E as [_ <-]. exact H.
  - apply (C a u v b'). change (l ++ [x; y]) with (l ++ [x] ++ [y]) in E. rewrite app_assoc in E.
    replace (a ++ u :: v :: b' ++ [z]) with ((a ++ u :: v :: b') ++ [z]) in E by (rewrite <- app_assoc; reflexivity).
    apply app_inj_tail in E. apply E.
Qed.
Lemma chained_init {A} (R : A -> A -> Prop) l x : chained R (l ++ [x]) -> chained R l.
Proof. intros C a u v b E. apply (C a u v (b ++ [x])). rewrite E, <- app_assoc. reflexivity. Qed.
Lemma chained_replace {A} (R : A -> A -> Prop) l x y : chained R (l ++ [x]) -> (forall u, R u x -> R u y) -> chained R (l ++ [y]).
Proof.
  intros C H. destruct (rev_cases l) as [[-> _]|[l' [z [-> _]]]].
  - intros a u v b E. apply (f_equal (@List.length _)) in E. rewrite !app_length in E. cbn in E. lia.
  - rewrite <- app_assoc. cbn [app]. apply chained_snoc; [eapply chained_init; exact C|].
    apply H. apply (C l' z x []). rewrite <- app_assoc. reflexivity.
Qed.
Lemma chained_nil {A} (R : A -> A -> Prop) : chained R [].
Proof. intros a u v b E. destruct a; discriminate. Qed.
Lemma chained_one {A} (R : A -> A -> Prop) x : chained R [x].
Proof. intros a u v b E. apply (f_equal (@List.length _)) in E. rewrite app_length in E. cbn in E. lia. Qed.

(** What holds of the lines built from the segments [segs] with proper part [out] *)
Record lines_ok (segs out : list (location * location)) (acc : list (list location)) : Prop := {
  lo_drawn : Forall2 stands_for_segment (drawn_segments acc) out;
  lo_lines : Forall (fun l => l <> [] /\ chained (fun a b => ~ same_place a b) l) acc;
  lo_gaps : chained gap acc;
  lo_cover : forall s e, In (s, e) segs -> on_line s acc /\ on_line e acc }.

Lemma new_line_ok s e : new_line s e <> [] /\ chained (fun a b => ~ same_place a b) (new_line s e).
Proof.
  unfold new_line. destruct (loc_eqb s e) eqn:E; (split; [discriminate|]).
  - apply chained_one.
  - apply (chained_snoc _ [] s e); [apply chained_one | apply loc_eqb_diff, E].
Qed.
Lemma new_line_on s e : (exists q, In q (new_line s e) /\ stands_for q s) /\ (exists q, In q (new_line s e) /\ stands_for q e).
Proof.
  unfold new_line. destruct (loc_eqb s e) eqn:E; split.
  - exists s. split; [left; reflexivity | left; reflexivity].
  - exists s. split; [left; reflexivity | right; apply loc_eqb_same, E].
  - exists s. split; [left; reflexivity | left; reflexivity].
  - exists e. split; [right; left; reflexivity | left; reflexivity].
Qed.
Lemma new_line_first s e a b : new_line s e = a :: b -> a = s.
Proof. unfold new_line. destruct (loc_eqb s e); intros E; injection E as <- _; reflexivity. Qed.
Lemma new_line_segments s e : segments (new_line s e) = if loc_eqb s e then [] else [(s, e)].
Proof. unfold new_line. destruct (loc_eqb s e); reflexivity. Qed.

Definition proper1 (s e : location) : list (location * location) := if loc_eqb s e then [] else [(s, e)].

Lemma drawn_app a b : drawn_segments (a ++ b) = drawn_segments a ++ drawn_segments b.
Proof. apply flat_map_app. Qed.
Lemma on_line_mono p a b : on_line p a -> on_line p (a ++ b).
Proof. intros [l [q [I J]]]. exists l, q. split; [apply in_or_app; left; exact I | exact J]. Qed.
Lemma stands_refl s : stands_for s s. Proof. left; reflexivity. Qed.

Lemma push_new_ok segs out acc s e : lines_ok segs out acc ->
  (forall l p, acc <> [] -> acc = l ++ [p] -> gap p (new_line s e)) ->
  lines_ok (segs ++ [(s, e)]) (out ++ proper1 s e) (acc ++ [new_line s e]).
Proof.
  intros [D L G C] H. constructor.
  - rewrite drawn_app. apply Forall2_app; [exact D|]. unfold drawn_segments. cbn [flat_map]. rewrite app_nil_r, new_line_segments.
    unfold proper1. destruct (loc_eqb s e); constructor; [split; [apply stands_refl | reflexivity] | constructor].
  - apply Forall_app. split; [exact L|]. constructor; [apply new_line_ok | constructor].
  - destruct (rev_cases acc) as [[-> _]|[l [p [-> _]]]]; [apply chained_one|]. rewrite <- app_assoc. cbn [app].
    apply chained_snoc; [exact G|]. apply (H l p); [destruct l; discriminate | reflexivity].
  - intros s' e' I. apply in_app_or in I. destruct I as [I|[I|[]]].
    + destruct (C _ _ I) as [A B]. split; apply on_line_mono; assumption.
    + injection I as <- <-. destruct (new_line_on s e) as [[q [Q1 Q2]] [r [R1 R2]]]. split.
      * exists (new_line s e), q. split; [apply in_or_app; right; left; reflexivity | auto].
      * exists (new_line s e), r. split; [apply in_or_app; right; left; reflexivity | auto].
Qed.

Lemma push_ok segs out acc s e : lines_ok segs out acc ->
  lines_ok (segs ++ [(s, e)]) (out ++ proper1 s e) (push_segment acc s e).
Proof.
  intros OK. unfold push_segment. destruct (rev_cases acc) as [[E ->]|[l [last [E ->]]]].
  { apply push_new_ok; [exact OK|]. intros l p N. congruence. }
  destruct (rev_cases last) as [[E2 ->]|[l2 [p [E2 ->]]]].
  { apply push_new_ok; [exact OK|]. intros l' p _ E'. rewrite E in E'. apply app_inj_tail in E'. destruct E' as [_ <-].
    subst last. intros a x y b X. destruct a; discriminate X. }
  destruct (loc_eqb p s) eqn:PS.
  2:{ apply push_new_ok; [exact OK|]. intros l' p' _ E'. rewrite E in E'. apply app_inj_tail in E'. destruct E' as [_ <-].
      intros a x y b X Y. rewrite E2 in X. apply app_inj_tail in X. destruct X as [_ <-].
      apply new_line_first in Y. subst y. apply loc_eqb_diff, PS. }
  apply loc_eqb_same in PS. destruct OK as [D L G C].
  assert (ONp : on_line p acc).
  { exists last, p. subst. split; [apply in_or_app; right; left; reflexivity|]. split; [apply in_or_app; right; left; reflexivity | apply stands_refl]. }
  destruct (loc_eqb p e) eqn:PE; cbn [negb].
  - apply loc_eqb_same in PE. assert (SE : loc_eqb s e = true) by (apply loc_eqb_same; eapply same_euclid; eassumption).
    unfold proper1. rewrite SE, app_nil_r. constructor; [exact D | exact L | exact G |].
    intros s' e' I. apply in_app_or in I. destruct I as [I|[I|[]]]; [apply C, I|]. injection I as <- <-.
    destruct ONp as [l0 [q [I [J K]]]]. split; exists last, p; subst last; subst acc;
      (split; [apply in_or_app; right; left; reflexivity|]; split; [apply in_or_app; right; left; reflexivity|]; right; assumption).
  - apply loc_eqb_diff in PE. assert (SE : loc_eqb s e = false).
    { apply loc_eqb_diff. intros X. apply PE. eapply same_trans; eassumption. }
    unfold proper1. rewrite SE. subst acc. rewrite set_last_app. subst last.
    apply Forall_app in L. destruct L as [L L']. inversion L' as [|? ? [N CH] _]; subst.
    rewrite <- app_assoc. cbn [app]. constructor.
    + rewrite drawn_app. unfold drawn_segments at 2. cbn [flat_map]. rewrite app_nil_r, segments_snoc.
      rewrite drawn_app in D. unfold drawn_segments at 2 in D. cbn [flat_map] in D. rewrite app_nil_r in D.
      rewrite app_assoc. apply Forall2_app; [exact D|]. constructor; [|constructor].
      split; cbn [fst snd]; [right; exact PS | reflexivity].
    + apply Forall_app. split; [exact L|]. constructor; [|constructor]. split; [destruct l2; discriminate|].
      apply chained_snoc; [exact CH | exact PE].
    + eapply chained_replace; [exact G|]. intros u GU a x y b X Y.
      destruct l2 as [|z l2]; cbn [app] in Y; injection Y as <- Yb; eapply GU; try exact X; reflexivity.
    + assert (M : forall q, on_line q (l ++ [l2 ++ [p]]) -> on_line q (l ++ [l2 ++ [p; e]])).
      { intros q [l0 [r [I [J K]]]]. apply in_app_or in I. destruct I as [I|[<-|[]]].
        - exists l0, r. split; [apply in_or_app; left; exact I | auto].
        - exists (l2 ++ [p; e]), r. split; [apply in_or_app; right; left; reflexivity|]. split; [|exact K].
          apply in_app_or in J. apply in_or_app. destruct J as [J|[<-|[]]]; [left; exact J | right; left; reflexivity]. }
      intros s' e' I. apply in_app_or in I. destruct I as [I|[I|[]]].
      * destruct (C _ _ I) as [A B]. split; apply M; assumption.
      * injection I as <- <-. split.
        -- apply M. exists (l2 ++ [p]), p. split; [apply in_or_app; right; left; reflexivity|].
           split; [apply in_or_app; right; left; reflexivity | right; exact PS].
        -- exists (l2 ++ [p; e]), e. split; [apply in_or_app; right; left; reflexivity|].
           split; [apply in_or_app; right; right; left; reflexivity | apply stands_refl].
Qed.

Lemma lines_ok_nil : lines_ok [] [] [].
Proof. constructor; [constructor | constructor | apply chained_nil | intros ? ? []]. Qed.

Lemma proper_ok segs : proper segs (flat_map (fun s => proper1 (fst s) (snd s)) segs).
Proof.
  induction segs as [|[s e] segs IH]; cbn [flat_map fst snd]; [constructor|]. unfold proper1 at 1. destruct (loc_eqb s e) eqn:E.
  - apply pr_drop; [apply loc_eqb_same, E | exact IH].
  - apply pr_keep; [apply loc_eqb_diff, E | exact IH].
Qed.

Lemma merge_lines_ok segs : exists out, proper segs out /\ lines_ok segs out (merge_lines segs).
Proof.
  eexists. split; [apply proper_ok|]. unfold merge_lines.
  assert (G : forall todo done out acc, lines_ok done out acc ->
    lines_ok (done ++ todo) (out ++ flat_map (fun s => proper1 (fst s) (snd s)) todo)
      (fold_left (fun acc s => push_segment acc (fst s) (snd s)) todo acc)).
  { induction todo as [|[s e] todo IH]; intros done out acc OK; cbn [flat_map fold_left fst snd].
    - rewrite !app_nil_r. exact OK.
    - pose proof (IH _ _ _ (push_ok _ _ _ s e OK)) as R. rewrite <- !app_assoc in R. exact R. }
  apply (G segs [] [] []), lines_ok_nil.
Qed.

(** * Groups *)
Record groups_ok (xs out : list (location * location * option text)) (acc : list line_group) : Prop := {
  go_drawn : Forall2 stands_for_entry (drawn_entries acc) out;
  go_groups : Forall (fun g => lg_lines g <> [] /\
     Forall (fun l => l <> [] /\ chained (fun a b => ~ same_place a b) l) (lg_lines g) /\ chained gap (lg_lines g)) acc;
  go_colours : chained (fun g g' => lg_colour g <> lg_colour g') acc;
  go_cover : forall s e c, In (s, e, c) xs -> exists g, In g acc /\ lg_colour g = c /\ on_line s (lg_lines g) /\ on_line e (lg_lines g) }.

Definition proper1e (x : location * location * option text) : list (location * location * option text) :=
  if loc_eqb (fst (fst x)) (snd (fst x)) then [] else [x].

Lemma entries_app a b : drawn_entries (a ++ b) = drawn_entries a ++ drawn_entries b.
Proof. apply flat_map_app. Qed.

(** A group on its own: the lines of the last group come from some segments. *)
Lemma push_group_lines g s e :
  Forall (fun l => l <> [] /\ chained (fun a b => ~ same_place a b) l) (lg_lines g) -> chained gap (lg_lines g) ->
  Forall2 stands_for_segment (drawn_segments (push_segment (lg_lines g) s e)) (drawn_segments (lg_lines g) ++ proper1 s e) /\
  push_segment (lg_lines g) s e <> [] /\
  Forall (fun l => l <> [] /\ chained (fun a b => ~ same_place a b) l) (push_segment (lg_lines g) s e) /\
  chained gap (push_segment (lg_lines g) s e) /\
  on_line s (push_segment (lg_lines g) s e) /\ on_line e (push_segment (lg_lines g) s e) /\
  (forall p, on_line p (lg_lines g) -> on_line p (push_segment (lg_lines g) s e)).
Proof.
  intros F G.
  assert (OK : lines_ok [] (drawn_segments (lg_lines g)) (lg_lines g)).
  { constructor; [|exact F|exact G|intros ? ? []]. induction (drawn_segments (lg_lines g)); constructor; auto.
    split; [apply stands_refl | reflexivity]. }
  destruct (push_ok _ _ _ s e OK) as [D' F' G' C']. cbn [app] in C'. destruct (C' s e (or_introl eq_refl)) as [A B].
  split; [exact D'|]. split. { intros E. rewrite E in A. destruct A as [? [? [[] _]]]. }
  split; [exact F'|]. split; [exact G'|]. split; [exact A|]. split; [exact B|].
  intros p [l [q [I [J K]]]]. unfold push_segment.
  destruct (rev_cases (lg_lines g)) as [[E ->]|[l1 [last [E ->]]]]; [rewrite E in I; destruct I|].
  assert (N : on_line p (lg_lines g ++ [new_line s e])).
  { exists l, q. split; [apply in_or_app; left; exact I | auto]. }
  destruct (rev_cases last) as [[E2 ->]|[l2 [p0 [E2 ->]]]]; [exact N|].
  destruct (loc_eqb p0 s); [|exact N]. destruct (loc_eqb p0 e); cbn [negb]; [exists l, q; auto|].
  rewrite E in I. rewrite E, set_last_app. apply in_app_or in I. destruct I as [I|[<-|[]]].
  - exists l, q. split; [apply in_or_app; left; exact I | auto].
  - exists (last ++ [e]), q. split; [apply in_or_app; right; left; reflexivity|]. split; [apply in_or_app; left; exact J | exact K].
Qed.

Lemma Forall2_map_colour (c : option text) a b : Forall2 stands_for_segment a b ->
  Forall2 stands_for_entry (map (fun s => (s, c)) a) (map (fun s => (s, c)) b).
Proof. induction 1; cbn [map]; constructor; [split; [assumption | reflexivity] | assumption]. Qed.

Lemma stands_trans a b c : stands_for a b -> stands_for b c -> stands_for a c.
Proof.
  intros [->|A] [->|B]; [left; reflexivity | right; exact B | right; exact A | right; eapply same_trans; eassumption].
Qed.
Lemma entry_trans a b c : stands_for_entry a b -> stands_for_entry b c -> stands_for_entry a c.
Proof.
  intros [[A B] C] [[D E] F]. split; [|congruence]. split; [eapply stands_trans; eassumption | congruence].
Qed.
Lemma Forall2_trans {A} (R : A -> A -> Prop) : (forall a b c, R a b -> R b c -> R a c) ->
  forall x y z, Forall2 R x y -> Forall2 R y z -> Forall2 R x z.
Proof.
  intros T x y z H. revert z. induction H as [|a b x y E _ IH]; intros z K; inversion K; subst; constructor; eauto.
Qed.

Lemma push_entry_ok xs out acc x : groups_ok xs out acc -> groups_ok (xs ++ [x]) (out ++ proper1e x) (push_entry acc x).
Proof.
  destruct x as [[s e] c]. intros [D L C V].
  assert (NEW : (forall l g, acc = l ++ [g] -> lg_colour g <> c) ->
     groups_ok (xs ++ [(s, e, c)]) (out ++ proper1e (s, e, c)) (acc ++ [mkLineGroup [new_line s e] c])).
  { intros H. constructor.
    - rewrite entries_app. apply Forall2_app; [exact D|]. unfold drawn_entries, drawn_segments. cbn [flat_map lg_lines lg_colour].
      rewrite !app_nil_r, new_line_segments. unfold proper1e. cbn [fst snd]. destruct (loc_eqb s e); cbn [map]; constructor; [|constructor].
      split; [split; [apply stands_refl | reflexivity] | reflexivity].
    - apply Forall_app. split; [exact L|]. constructor; [|constructor]. cbn [lg_lines]. split; [discriminate|].
      split; [constructor; [apply new_line_ok | constructor] | apply chained_one].
    - destruct (rev_cases acc) as [[-> _]|[l [g [E _]]]]; [apply chained_one|]. pose proof (H _ _ E) as N. subst acc.
      rewrite <- app_assoc. cbn [app]. apply chained_snoc; [exact C | exact N].
    - intros s' e' c' I. apply in_app_or in I. destruct I as [I|[I|[]]].
      + destruct (V _ _ _ I) as [g [A B]]. exists g. split; [apply in_or_app; left; exact A | exact B].
      + injection I as <- <- <-. exists (mkLineGroup [new_line s e] c). split; [apply in_or_app; right; left; reflexivity|].
        split; [reflexivity|]. cbn [lg_lines]. destruct (new_line_on s e) as [[q [Q1 Q2]] [r [R1 R2]]].
        split; [exists (new_line s e), q | exists (new_line s e), r]; (split; [left; reflexivity | auto]). }
  unfold push_entry. destruct (rev_cases acc) as [[E ->]|[l [g [E ->]]]].
  { apply NEW. intros l g X. rewrite E in X. destruct l; discriminate. }
  destruct (eqb (lg_colour g) c) eqn:EC.
  2:{ apply NEW. intros l' g' X. rewrite E in X. apply app_inj_tail in X. destruct X as [_ <-]. rewrite eqb_false in EC. exact EC. }
  rewrite eqb_true in EC. subst acc. rewrite set_last_app. clear NEW.
  apply Forall_app in L. destruct L as [L L']. inversion L' as [|? ? [N [F G]] _]; subst.
  destruct (push_group_lines g s e F G) as [D' [N' [F' [G' [A [B M]]]]]].
  constructor.
  - rewrite entries_app in *. unfold drawn_entries at 2. cbn [flat_map lg_lines lg_colour]. rewrite app_nil_r.
    eapply (Forall2_trans _ entry_trans _ ((drawn_entries l ++ drawn_entries [g]) ++ proper1e (s, e, lg_colour g))).
    + rewrite <- app_assoc. apply Forall2_app.
      { clear. induction (drawn_entries l); constructor; auto. split; [split; [apply stands_refl | reflexivity] | reflexivity]. }
      unfold drawn_entries. cbn [flat_map]. rewrite app_nil_r.
      replace (map (fun s => (s, lg_colour g)) (drawn_segments (lg_lines g)) ++ proper1e (s, e, lg_colour g))
        with (map (fun s => (s, lg_colour g)) (drawn_segments (lg_lines g) ++ proper1 s e)).
      { apply Forall2_map_colour, D'. }
      rewrite map_app. f_equal. unfold proper1, proper1e. cbn [fst snd]. destruct (loc_eqb s e); reflexivity.
    + apply Forall2_app; [exact D|]. unfold proper1e. destruct (loc_eqb _ _); constructor; [|constructor].
      split; [split; [apply stands_refl | reflexivity] | reflexivity].
  - apply Forall_app. split; [exact L|]. constructor; [|constructor]. cbn [lg_lines]. auto.
  - eapply chained_replace; [exact C|]. cbn [lg_colour]. intros u X. exact X.
  - intros s' e' c' I. apply in_app_or in I. destruct I as [I|[I|[]]].
    + destruct (V _ _ _ I) as [g' [X [Y [Z W]]]]. apply in_app_or in X. destruct X as [X|[<-|[]]].
      * exists g'. split; [apply in_or_app; left; exact X | auto].
      * eexists. split; [apply in_or_app; right; left; reflexivity|]. cbn [lg_lines lg_colour]. auto.
    + injection I as <- <- <-. eexists. split; [apply in_or_app; right; left; reflexivity|]. cbn [lg_lines lg_colour]. auto.
Qed.

Lemma proper_entries_ok xs : proper_entries xs (flat_map proper1e xs).
Proof.
  induction xs as [|[[s e] c] xs IH]; cbn [flat_map]; [constructor|]. unfold proper1e at 1. cbn [fst snd]. destruct (loc_eqb s e) eqn:E.
  - apply pe_drop; [apply loc_eqb_same, E | exact IH].
  - apply pe_keep; [apply loc_eqb_diff, E | exact IH].
Qed.
Lemma merge_groups_ok xs : exists out, proper_entries xs out /\ groups_ok xs out (merge_groups xs).
Proof.
  eexists. split; [apply proper_entries_ok|]. unfold merge_groups.
  assert (G : forall todo done out acc, groups_ok done out acc ->
    groups_ok (done ++ todo) (out ++ flat_map proper1e todo) (fold_left push_entry todo acc)).
  { induction todo as [|x todo IH]; intros done out acc OK; cbn [flat_map fold_left].
    - rewrite !app_nil_r. exact OK.
    - pose proof (IH _ _ _ (push_entry_ok _ _ _ x OK)) as R. rewrite <- !app_assoc in R. exact R. }
  apply (G xs [] [] []). constructor; [constructor | constructor | apply chained_nil | intros ? ? ? []].
Qed.
