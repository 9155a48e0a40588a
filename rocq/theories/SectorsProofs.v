(** Proofs about sector polygons (C15, C16). *)
From Coq Require Import ZifyBool ZifyN ZifyNat.
From Verif Require Import Base Float Sectors SpecSectors.

Lemma lines_of_pairs {A} (l : list A) : lines_of l = pairs l.
Proof.
  induction l as [|a [|b l] IH]; [reflexivity..|].
  change (lines_of (a :: b :: l)) with ((a, b) :: lines_of (b :: l)). rewrite IH. reflexivity.
Qed.

Lemma border_lines_eq s : border_lines s = border_segments s.
Proof.
  unfold border_lines, border_segments. apply flat_map_ext. intros l. rewrite <- lines_of_pairs.
  induction l as [|a [|b l] IH]; [reflexivity..|].
  change (lines_of (a :: b :: l)) with ((a, b) :: lines_of (b :: l)).
  change (lines_of (map quantize (a :: b :: l))) with ((quantize a, quantize b) :: lines_of (map quantize (b :: l))).
  rewrite <- IH. reflexivity.
Qed.

(** * Segments up to order and direction *)
Definition seg_eq {V} (A B : list (V * V)) : Prop :=
  exists A', Permutation A A' /\ Forall2 same_segment A' B.

Lemma same_segment_refl {V} (e : V * V) : same_segment e e.
Proof. left; reflexivity. Qed.
Lemma same_segment_trans {V} (a b c : V * V) : same_segment a b -> same_segment b c -> same_segment a c.
Proof. destruct a, b, c. unfold same_segment; cbn. intuition congruence. Qed.

Lemma Forall2_refl_seg {V} (A : list (V * V)) : Forall2 same_segment A A.
Proof. induction A; constructor; [apply same_segment_refl | assumption]. Qed.

Lemma seg_eq_refl {V} (A : list (V * V)) : seg_eq A A.
Proof. exists A; split; [reflexivity | apply Forall2_refl_seg]. Qed.

Lemma Forall2_perm_r {X Y} (R : X -> Y -> Prop) A B B' :
  Forall2 R A B -> Permutation B B' -> exists A', Permutation A A' /\ Forall2 R A' B'.
Proof.
  intros F P; revert A F. induction P as [|x l l' P IH|x y l|l l' l'' P1 IH1 P2 IH2]; intros A F.
  - exists A; split; [reflexivity | exact F].
  - inversion F as [|a ? A0 ? R0 F0]; subst. destruct (IH _ F0) as [A' [P' F']].
    exists (a :: A'). split; constructor; assumption.
  - inversion F as [|a ? A0 ? R0 F0]; subst. inversion F0 as [|b ? A1 ? R1 F1]; subst.
    exists (b :: a :: A1). split; [apply perm_swap | repeat constructor; assumption].
  - destruct (IH1 _ F) as [A' [P' F']]. destruct (IH2 _ F') as [A'' [P'' F'']].
    exists A''. split; [etransitivity; eassumption | exact F''].
Qed.

Lemma seg_eq_perm_r {V} (A B B' : list (V * V)) : seg_eq A B -> Permutation B B' -> seg_eq A B'.
Proof.
  intros [A' [P F]] Q. destruct (Forall2_perm_r _ _ _ _ F Q) as [A'' [P' F']].
  exists A''. split; [etransitivity; eassumption | exact F'].
Qed.

Lemma seg_eq_swap {V} (A : list (V * V)) e e' B : seg_eq A (e :: B) -> same_segment e e' -> seg_eq A (e' :: B).
Proof.
  intros [A' [P F]] S. inversion F as [|a ? A0 ? R F0]; subst. exists (a :: A0).
  split; [exact P | constructor; [eapply same_segment_trans; eassumption | exact F0]].
Qed.

Lemma seg_eq_length {V} (A B : list (V * V)) : seg_eq A B -> List.length A = List.length B.
Proof.
  intros [A' [P F]]. rewrite (Permutation_length P). clear P.
  induction F; cbn [List.length]; congruence.
Qed.

Lemma seg_eq_In {V} (A B : list (V * V)) x y : seg_eq A B -> In (x, y) B -> In (x, y) A \/ In (y, x) A.
Proof.
  intros [A' [P F]] I.
  assert (In (x, y) A' \/ In (y, x) A') as J.
  { induction F as [|[a a'] [b b'] A' B S F IH]; [destruct I|].
    assert (IHx : In (x, y) B -> In (x, y) ((a, a') :: A') \/ In (y, x) ((a, a') :: A')).
    { intros J. clear - J F. induction F as [|[c c'] [d d'] A' B S F IH]; [destruct J|].
      destruct J as [E|J].
      - injection E as <- <-. destruct S as [S|S]; cbn in S; [left|right]; right; left; congruence.
      - destruct (IH J) as [[Q|Q]|[Q|Q]]; cbn; tauto. }
    destruct I as [E|I]; [|apply IHx, I].
    injection E as <- <-. destruct S as [S|S]; cbn in S; [left|right]; left; congruence. }
  destruct J as [J|J]; [left|right]; (eapply Permutation_in; [symmetry; exact P | exact J]).
Qed.

Lemma seg_eq_In' {V} (A B : list (V * V)) x y : seg_eq A B -> In (x, y) A -> In (x, y) B \/ In (y, x) B.
Proof.
  intros [A' [P F]] I. apply (Permutation_in _ P) in I. clear P.
  induction F as [|[a a'] [b b'] A' B S F IH]; [destruct I|].
  destruct I as [E|I].
  - injection E as <- <-. destruct S as [S|S]; cbn in S; injection S as -> ->; [left|right]; left; reflexivity.
  - destruct (IH I); [left|right]; right; assumption.
Qed.

(** * Adjacency *)
Section Adj.
  Context {V : Type} `{EqDec V}.

  Definition ends (v : V) (e : V * V) : list V :=
    (if eqb (fst e) v then [snd e] else []) ++ (if eqb (snd e) v then [fst e] else []).
  Definition nb (M : list (V * V)) (v : V) : list V := flat_map (ends v) M.
  Definition vert (M : list (V * V)) (v : V) : Prop := exists w, In (v, w) M \/ In (w, v) M.

  Lemma nb_perm M M' v : Permutation M M' -> Permutation (nb M v) (nb M' v).
  Proof. intros P. unfold nb. apply Permutation_flat_map, P. Qed.

  Lemma nb_In M v w : In w (nb M v) <-> In (v, w) M \/ In (w, v) M.
  Proof.
    unfold nb. rewrite in_flat_map. unfold ends. split.
    - intros [[x y] [I J]]. cbn [fst snd] in J. rewrite in_app_iff in J. unfold eqb in J.
      destruct (eq_dec x v), (eq_dec y v); cbn [In] in J; intuition (subst; auto).
    - intros [I|I]; [exists (v, w) | exists (w, v)]; (split; [exact I|]); cbn [fst snd];
        rewrite eqb_refl, in_app_iff; [left|right]; left; reflexivity.
  Qed.

  Lemma nb_vert M v w : In w (nb M v) -> vert M v /\ vert M w.
  Proof. intros I. apply nb_In in I. split; [exists w | exists v]; tauto. Qed.

  Lemma nb_cons e M v : nb (e :: M) v = ends v e ++ nb M v.
  Proof. reflexivity. Qed.

  Lemma ends_swap v x y : Permutation (ends v (x, y)) (ends v (y, x)).
  Proof. unfold ends; cbn [fst snd]. apply Permutation_app_comm. Qed.

  Definition b2n (b : bool) : nat := if b then 1 else 0.
  Lemma ends_length v x y : List.length (ends v (x, y)) = b2n (eqb v x) + b2n (eqb v y).
  Proof.
    unfold ends; cbn [fst snd]. unfold eqb.
    destruct (eq_dec x v), (eq_dec y v), (eq_dec v x), (eq_dec v y); cbn; congruence || lia.
  Qed.

  Lemma nb_degree M v : List.length (nb M v) = degree M v.
  Proof.
    unfold degree, nb. induction M as [|[x y] M IH]; [reflexivity|].
    cbn [flat_map map filter fst snd]. rewrite app_length, IH, ends_length.
    unfold b2n. destruct (eqb v x), (eqb v y); cbn [List.length]; lia.
  Qed.

  Lemma in_nb_edge M v w : In w (nb M v) ->
    exists e M', Permutation M (e :: M') /\ same_segment e (v, w).
  Proof.
    intros I. apply nb_In in I.
    destruct I as [I|I]; apply in_split in I; destruct I as [l1 [l2 ->]];
      [exists (v, w) | exists (w, v)]; exists (l1 ++ l2);
      (split; [symmetry; apply Permutation_middle |]); [left|right]; reflexivity.
  Qed.
End Adj.

Lemma last_default {T} (l : list T) x d d' : last (x :: l) d = last (x :: l) d'.
Proof. revert x; induction l as [|y l IH]; intros x; [reflexivity|]. cbn [last] in *. apply IH. Qed.

Lemma last_removelast {T} (x : T) l d : x :: l = removelast (x :: l) ++ [last (x :: l) d].
Proof. apply app_removelast_last. discriminate. Qed.

Lemma swap_remove_perm x l : In x l -> Permutation l (x :: swap_remove x l).
Proof.
  induction l as [|y l IH]; intros I; [destruct I|]. cbn [swap_remove].
  destruct (eqb y x) eqn:E.
  - rewrite eqb_true in E. subst y. destruct l as [|z l]; [reflexivity|].
    apply perm_skip. rewrite (last_removelast z l x) at 1.
    symmetry. apply Permutation_cons_append.
  - destruct I as [->|I]; [rewrite eqb_refl in E; discriminate|].
    rewrite (IH I) at 1. apply perm_swap.
Qed.

Lemma lines_snoc {T} (l : list T) x y : lines_of (l ++ [x; y]) = lines_of (l ++ [x]) ++ [(x, y)].
Proof.
  induction l as [|a l IH]; [reflexivity|]. cbn [app].
  destruct l as [|b l]; [reflexivity|]. cbn [app lines_of] in *. rewrite IH. reflexivity.
Qed.

(** * The loop *)
Record Inv (E : list (coord * coord)) (s : coord) (adj : list (coord * list coord))
    (st : list coord) (cur : coord) (ring : list coord) (anchor : coord) (M : list (coord * coord)) : Prop := {
  i_adj : forall v, vert E v -> exists l, get v adj = Some l /\ Permutation l (nb M v);
  i_walk : exists pre, cur :: st = pre ++ [s];
  i_segs : seg_eq E (lines_of (cur :: st) ++ lines_of (ring ++ [anchor]) ++ M);
  i_par : forall v, Nat.odd (List.length (nb M v)) = xorb (eqb v cur) (eqb v anchor);
  i_vert : vert E cur;
  i_vertM : forall v, vert M v -> vert E v;
  i_ring : forall v, In v ring -> nb M v = [];
  i_first : exists tl, ring ++ [anchor] = s :: tl
}.

Lemma circuit_spec E s : forall fuel adj st cur ring anchor M,
  Inv E s adj st cur ring anchor M ->
  2 * List.length M + List.length (st ++ [s]) <= fuel ->
  exists ring' M', circuit fuel adj (st ++ [s]) cur ring = Some ring' /\
    seg_eq E (lines_of ring' ++ M') /\ (forall v, In v ring' -> nb M' v = []) /\
    (exists tl, ring' = s :: tl) /\ (exists pre, ring' = pre ++ [s]).
Proof.
  induction fuel as [|fuel IH]; intros adj st cur ring anchor M I Fu.
  { rewrite app_length in Fu. cbn in Fu. lia. }
  destruct I as [Ia Iw Is Ip Iv IvM Ir If].
  destruct (Ia cur Iv) as [l [Gl Pl]].
  destruct l as [|n ns].
  - (* stuck: cur is the anchor *)
    assert (NB : nb M cur = []) by (apply Permutation_nil, Pl).
    assert (anchor = cur) as ->.
    { specialize (Ip cur). rewrite NB, eqb_refl in Ip. cbn in Ip.
      destruct (eqb cur anchor) eqn:Q; [rewrite eqb_true in Q; congruence | discriminate]. }
    destruct st as [|u st].
    + cbn [app circuit]. rewrite Gl.
      assert (cur = s) as ->.
      { destruct Iw as [pre Ew]. destruct pre as [|x pre]; [injection Ew; auto | destruct pre; discriminate]. }
      replace (circuit fuel adj [] s (ring ++ [s])) with (Some (ring ++ [s])) by (destruct fuel; reflexivity).
      exists (ring ++ [s]), M. split; [reflexivity|]. cbn [lines_of app] in Is.
      split; [exact Is|]. split.
      * intros v J. rewrite in_app_iff in J. destruct J as [J|[<-|[]]]; [apply Ir, J | exact NB].
      * split; [exact If | exists ring; reflexivity].
    + cbn [app circuit]. rewrite Gl.
      apply IH with (anchor := u) (M := M).
      * constructor; try assumption.
        -- destruct Iw as [pre Ew]. destruct pre as [|x pre]; [discriminate|]. injection Ew as <- Ew. exists pre; exact Ew.
        -- cbn [lines_of] in Is. rewrite <- app_assoc. cbn [app]. rewrite lines_snoc.
           eapply seg_eq_perm_r; [exact Is|]. fold (lines_of (u :: st)).
           change (((cur, u) :: lines_of (u :: st)) ++ lines_of (ring ++ [cur]) ++ M)
             with ((cur, u) :: (lines_of (u :: st) ++ lines_of (ring ++ [cur]) ++ M)).
           rewrite <- app_assoc. cbn [app]. rewrite !app_assoc. apply Permutation_middle.
        -- intros v. rewrite Ip. rewrite !xorb_nilpotent. reflexivity.
        -- (* u is a vertex *)
           cbn [lines_of] in Is.
           assert (J : In (cur, u) (((cur, u) :: lines_of (u :: st)) ++ lines_of (ring ++ [cur]) ++ M))
             by (left; reflexivity).
           destruct (seg_eq_In _ _ _ _ Is J); exists cur; tauto.
        -- intros v J. rewrite in_app_iff in J. destruct J as [J|[<-|[]]]; [apply Ir, J | exact NB].
        -- destruct If as [tl ->]. exists (tl ++ [u]). reflexivity.
      * cbn [List.length app] in *. lia.
  - (* follow an edge *)
    assert (ST : exists top stack', st ++ [s] = top :: stack') by (destruct st; cbn; eauto).
    destruct ST as [top [stack' ST]]. rewrite ST. cbn [circuit]. rewrite Gl.
    set (next := last (n :: ns) n). set (ns' := removelast (n :: ns)).
    assert (EL : n :: ns = ns' ++ [next]) by apply last_removelast.
    assert (In next (nb M cur)).
    { eapply Permutation_in; [exact Pl|]. rewrite EL, in_app_iff. right; left; reflexivity. }
    destruct (in_nb_edge _ _ _ H) as [e [M' [PM Se]]].
    assert (Vn : vert E next) by (apply IvM, (nb_vert M cur next), H).
    assert (ES : forall v, Permutation (ends v e) (ends v (cur, next))).
    { intros v. destruct e as [e1 e2]. destruct Se as [Se|Se]; cbn in Se; injection Se as -> ->;
        [reflexivity | apply ends_swap]. }
    assert (NBv : forall v, Permutation (nb M v) (ends v (cur, next) ++ nb M' v)).
    { intros v. rewrite (nb_perm _ _ v PM), nb_cons. apply Permutation_app_tail, ES. }
    set (adj1 := put cur ns' adj).
    assert (G1 : exists rn, get next adj1 = Some rn /\ In cur rn /\
               Permutation (swap_remove cur rn) (nb M' next) /\
               (cur <> next -> Permutation ns' (nb M' cur))).
    { unfold adj1. rewrite get_put. destruct (eq_dec next cur) as [Q|Q].
      - exists ns'. split; [reflexivity|].
        assert (PP : Permutation ns' (cur :: nb M' cur)).
        { apply Permutation_cons_inv with (a := cur). rewrite <- (Permutation_app_comm [cur] ns') at 1 || idtac.
          transitivity (ns' ++ [next]); [rewrite Q; apply Permutation_cons_append|].
          rewrite <- EL, Pl, (NBv cur). rewrite Q. unfold ends; cbn [fst snd]. rewrite eqb_refl. reflexivity. }
        assert (IC : In cur ns') by (eapply Permutation_in; [symmetry; exact PP | left; reflexivity]).
        split; [exact IC|]. split; [|congruence].
        rewrite Q. apply Permutation_cons_inv with (a := cur).
        rewrite <- (swap_remove_perm cur ns' IC). exact PP.
      - destruct (Ia next Vn) as [rn [Gr Pr]]. exists rn. split; [exact Gr|].
        assert (PP : Permutation rn (cur :: nb M' next)).
        { rewrite Pr, (NBv next). unfold ends; cbn [fst snd]. rewrite eqb_refl.
          assert (eqb cur next = false) as -> by (apply eqb_false; congruence). reflexivity. }
        assert (IC : In cur rn) by (eapply Permutation_in; [symmetry; exact PP | left; reflexivity]).
        split; [exact IC|]. split.
        + apply Permutation_cons_inv with (a := cur).
          rewrite <- (swap_remove_perm cur rn IC). exact PP.
        + intros _. apply Permutation_cons_inv with (a := next).
          transitivity (ns' ++ [next]); [apply Permutation_cons_append|].
          rewrite <- EL, Pl, (NBv cur). unfold ends; cbn [fst snd]. rewrite eqb_refl.
          assert (eqb next cur = false) as -> by (apply eqb_false; congruence). reflexivity. }
    destruct G1 as [rn [G1 [IC [Pn Pc]]]]. rewrite G1. rewrite <- ST.
    change (cur :: st ++ [s]) with ((cur :: st) ++ [s]).
    apply IH with (anchor := anchor) (M := M').
    + constructor.
      * intros v Vv. rewrite get_put. destruct (eq_dec v next) as [->|N1].
        { exists (swap_remove cur rn). split; [reflexivity | exact Pn]. }
        unfold adj1. rewrite get_put. destruct (eq_dec v cur) as [->|N2].
        { exists ns'. split; [reflexivity | apply Pc; congruence]. }
        destruct (Ia v Vv) as [l' [Gl' Pl']]. exists l'. split; [exact Gl'|].
        rewrite Pl', (NBv v). unfold ends; cbn [fst snd].
        assert (eqb cur v = false) as -> by (apply eqb_false; congruence).
        assert (eqb next v = false) as -> by (apply eqb_false; congruence). reflexivity.
      * destruct Iw as [pre Ew]. exists (next :: pre). rewrite Ew. reflexivity.
      * assert (X : seg_eq E (e :: (lines_of (cur :: st) ++ lines_of (ring ++ [anchor]) ++ M'))).
        { eapply seg_eq_perm_r; [exact Is|].
          rewrite PM. rewrite !app_assoc. symmetry. apply Permutation_middle. }
        assert (S2 : same_segment e (next, cur)).
        { eapply same_segment_trans; [exact Se | right; reflexivity]. }
        exact (seg_eq_swap _ _ _ _ X S2).
      * intros v. pose proof (Ip v) as Q. rewrite (Permutation_length (NBv v)), app_length, ends_length in Q.
        rewrite Nat.odd_add, Nat.odd_add in Q.
        assert (OB : forall b, Nat.odd (b2n b) = b) by (intros []; reflexivity).
        rewrite !OB in Q.
        destruct (Nat.odd (List.length (nb M' v))), (eqb v cur), (eqb v next), (eqb v anchor); cbn in *; congruence.
      * exact Vn.
      * intros v Vv. apply IvM. destruct Vv as [w Vv]. exists w.
        destruct Vv as [Vv|Vv]; [left|right]; (eapply Permutation_in; [symmetry; exact PM | right; exact Vv]).
      * intros v J. specialize (Ir v J). apply Permutation_nil.
        assert (LN : List.length (nb M v) = 0) by (rewrite Ir; reflexivity).
        rewrite (Permutation_length (NBv v)), app_length in LN.
        destruct (nb M' v); [reflexivity | cbn in LN; lia].
      * exact If.
    + rewrite (Permutation_length PM) in Fu. cbn [List.length app] in *. lia.
Qed.

(** * Building the tables *)
Lemma mget_vec_mpush2 v (s e : coord) adj :
  mget_vec v (mpush e s (mpush s e adj)) = mget_vec v adj ++ ends v (s, e).
Proof.
  rewrite !mget_vec_push. unfold ends; cbn [fst snd]. unfold eqb.
  destruct (eq_dec v e) as [->|N1].
  - destruct (eq_dec e e); [|congruence]. destruct (eq_dec e s) as [->|N2].
    + destruct (eq_dec s s); [|congruence]. rewrite <- app_assoc. reflexivity.
    + destruct (eq_dec s e); [congruence|]. reflexivity.
  - destruct (eq_dec e v); [congruence|]. destruct (eq_dec v s) as [->|N2].
    + destruct (eq_dec s s); [|congruence]. reflexivity.
    + destruct (eq_dec s v); [congruence|]. rewrite app_nil_r. reflexivity.
Qed.

Lemma nb_snoc (M : list (coord * coord)) e v : nb (M ++ [e]) v = nb M v ++ ends v e.
Proof. unfold nb. rewrite flat_map_app. cbn. rewrite app_nil_r. reflexivity. Qed.

Lemma vert_snoc (M : list (coord * coord)) s e v : vert (M ++ [(s, e)]) v <-> vert M v \/ v = s \/ v = e.
Proof.
  unfold vert. split.
  - intros [w J]. rewrite !in_app_iff in J. cbn [In] in J.
    destruct J as [[J|[J|[]]]|[J|[J|[]]]].
    + left; exists w; tauto.
    + injection J as -> ->; tauto.
    + left; exists w; tauto.
    + injection J as -> ->; tauto.
  - intros [[w J]|[->| ->]].
    + exists w. rewrite !in_app_iff. tauto.
    + exists e. rewrite !in_app_iff. left; right; left; reflexivity.
    + exists s. rewrite !in_app_iff. right; right; left; reflexivity.
Qed.

Lemma build_snoc lines l : build (lines ++ [l]) = add_line (build lines) l.
Proof. unfold build. rewrite fold_left_app. reflexivity. Qed.

Lemma get_mpush k v k' (m : list (coord * list coord)) :
  get k' (mpush k v m) = if eq_dec k' k then Some (mget_vec k m ++ [v]) else get k' m.
Proof. unfold mpush. rewrite get_put. reflexivity. Qed.

Definition cnt_of (v : coord) (m : list (coord * N)) : N := match get v m with Some n => n | None => 0%N end.

Lemma cnt_bump v c m : cnt_of v (put c (cnt_of c m + 1)%N m) = (cnt_of v m + N.of_nat (b2n (eqb v c)))%N.
Proof.
  unfold cnt_of at 1. rewrite get_put. unfold eqb. destruct (eq_dec v c) as [->|]; cbn [b2n].
  - reflexivity.
  - fold (cnt_of v m). lia.
Qed.

Lemma build_spec lines : let '(adj, cnt, pts) := build lines in
  (forall v, mget_vec v adj = nb lines v) /\
  (forall v, vert lines v -> get v adj <> None) /\
  (forall v, cnt_of v cnt = N.of_nat (List.length (nb lines v))) /\
  NoDup (keys cnt) /\
  (forall v, In v pts <-> vert lines v).
Proof.
  induction lines as [|[s e] lines IH] using rev_ind.
  - cbn. split; [|split; [|split; [|split]]]; try reflexivity; try (constructor; fail).
    + intros v [w [[]|[]]].
    + intros v. split; [intros [] | intros [w [[]|[]]]].
  - rewrite build_snoc. destruct (build lines) as [[adj cnt] pts]. cbn [add_line].
    destruct IH as [I1 [I2 [I3 [I4 I5]]]].
    split; [|split; [|split; [|split]]].
    + intros v. rewrite mget_vec_mpush2, nb_snoc, I1. reflexivity.
    + intros v Vv. rewrite !get_mpush. destruct (eq_dec v e); [discriminate|].
      destruct (eq_dec v s); [discriminate|]. apply I2. apply vert_snoc in Vv. tauto.
    + intros v. fold (cnt_of s cnt). set (c1 := put s (cnt_of s cnt + 1)%N cnt). fold (cnt_of e c1).
      rewrite cnt_bump. unfold c1. rewrite cnt_bump, I3, nb_snoc, app_length, ends_length. lia.
    + apply NoDup_put, NoDup_put, I4.
    + intros v. rewrite vert_snoc, <- I5.
      repeat match goal with |- context [in_dec ?d ?x ?l] => destruct (in_dec d x l) end;
        rewrite ?in_app_iff in *; cbn [In] in *; intuition (subst; auto).
Qed.

Lemma even_check lines : let '(adj, cnt, pts) := build lines in
  forallb (fun '(_, n) => N.even n) cnt = true <-> forall v, Nat.even (degree lines v) = true.
Proof.
  pose proof (build_spec lines) as B. destruct (build lines) as [[adj cnt] pts].
  destruct B as [_ [_ [I3 [I4 _]]]]. rewrite forallb_forall.
  assert (EV : forall n, N.even (N.of_nat n) = Nat.even n).
  { intros n. destruct (N.even (N.of_nat n)) eqn:A, (Nat.even n) eqn:B; try reflexivity; exfalso.
    - apply N.even_spec in A. destruct A as [k A]. apply not_true_iff_false in B. apply B, Nat.even_spec.
      exists (N.to_nat k). lia.
    - apply Nat.even_spec in B. destruct B as [k B]. apply not_true_iff_false in A. apply A, N.even_spec.
      exists (N.of_nat k). lia. }
  split.
  - intros F v. rewrite <- nb_degree, <- EV, <- I3. unfold cnt_of.
    destruct (get v cnt) as [n|] eqn:G; [|reflexivity]. apply get_In in G. apply (F (v, n) G).
  - intros F [v n] J. apply In_get in J; [|exact I4].
    specialize (I3 v). unfold cnt_of in I3. rewrite J in I3. rewrite I3, EV, nb_degree. apply F.
Qed.

(** * The whole computation *)
Lemma ring_loop lines s : (forall v, Nat.even (degree lines v) = true) -> vert lines s ->
  let '(adj, cnt, pts) := build lines in
  exists ring M, circuit (2 * List.length lines + 1) adj [s] s [] = Some ring /\
    seg_eq lines (lines_of ring ++ M) /\ (forall v, In v ring -> nb M v = []) /\
    (exists tl, ring = s :: tl) /\ (exists pre, ring = pre ++ [s]).
Proof.
  intros Ev Vs. pose proof (build_spec lines) as B. destruct (build lines) as [[adj cnt] pts].
  destruct B as [I1 [I2 _]].
  apply (circuit_spec lines s) with (st := []) (anchor := s) (M := lines).
  - constructor.
    + intros v Vv. specialize (I1 v). specialize (I2 v Vv). unfold mget_vec in I1.
      destruct (get v adj) as [l|]; [|congruence]. exists l. split; [reflexivity | rewrite I1; reflexivity].
    + exists []; reflexivity.
    + apply seg_eq_refl.
    + intros v. rewrite xorb_nilpotent, nb_degree. rewrite <- Nat.negb_even, Ev. reflexivity.
    + exact Vs.
    + auto.
    + intros v [].
    + exists []; reflexivity.
  - cbn [List.length app]. lia.
Qed.

Lemma lines_In {T} (l : list T) x y : In (x, y) (lines_of l) -> In x l /\ In y l.
Proof.
  induction l as [|a l IH]; [intros []|]. destruct l as [|b l]; [intros []|].
  intros [E|J].
  - injection E as <- <-. split; [left; reflexivity | right; left; reflexivity].
  - destruct (IH J). split; right; assumption.
Qed.

Lemma lines_length {T} (l : list T) : List.length (lines_of l) = List.length l - 1.
Proof.
  induction l as [|a l IH]; [reflexivity|]. destruct l as [|b l]; [reflexivity|].
  change (lines_of (a :: b :: l)) with ((a, b) :: lines_of (b :: l)). cbn [List.length] in *. lia.
Qed.

Lemma reach_sym {V} (L : list (V * V)) u v : reach L u v -> reach L v u.
Proof.
  intros R.
  assert (T : forall a b c, reach L a b -> reach L b c -> reach L a c).
  { intros a b c R1 R2. revert a R1. induction R2; intros a R1; [exact R1|]. eapply reach_step; [apply IHR2, R1 | exact H]. }
  induction R as [v|u v w R IH J]; [constructor|].
  eapply T; [|exact IH]. eapply reach_step; [constructor | tauto].
Qed.

Lemma reach_trans {V} (L : list (V * V)) a b c : reach L a b -> reach L b c -> reach L a c.
Proof.
  intros R1 R2. revert a R1. induction R2; intros a R1; [exact R1|]. eapply reach_step; [apply IHR2, R1 | exact H].
Qed.

(** all points of a ring are connected by its lines *)
Lemma ring_reach {T} (ring : list T) x : In x ring -> forall h t, ring = h :: t -> reach (lines_of ring) h x.
Proof.
  intros J h t ->. revert h J. induction t as [|b t IH]; intros h J.
  - destruct J as [->|[]]. constructor.
  - destruct J as [->|J]; [constructor|].
    assert (reach (lines_of (b :: t)) b x) as R by (apply IH, J).
    assert (W : forall u v, reach (lines_of (b :: t)) u v -> reach (lines_of (h :: b :: t)) u v).
    { intros u v Q. induction Q as [|u v w Q IHQ X]; [constructor|]. eapply reach_step; [exact IHQ|].
      cbn [lines_of]. destruct X; [left|right]; right; assumption. }
    eapply reach_trans; [|apply W, R].
    eapply reach_step; [constructor|]. left. left. reflexivity.
Qed.

Lemma ring_of_spec lines order : set_order order ->
  match ring_of lines order with
  | RHang => False
  | RNone => ~ closed_connected_border lines
  | RRing ring => closed_connected_border lines /\ uses_each_once ring lines /\ closed ring
  end.
Proof.
  intros SO. unfold ring_of.
  pose proof (build_spec lines) as B. pose proof (even_check lines) as EC.
  pose proof (ring_loop lines) as RL.
  destruct (build lines) as [[adj cnt] pts]. destruct B as [_ [_ [_ [_ I5]]]].
  destruct (forallb _ cnt) eqn:F; cbn [negb].
  2:{ intros [_ [Ev _]]. apply EC in Ev. congruence. }
  assert (Ev : forall v, Nat.even (degree lines v) = true) by (apply EC; reflexivity).
  destruct (order pts) as [|start ord] eqn:Eo.
  { intros [NE _]. destruct lines as [|[a b] lines]; [congruence|].
    assert (J : In a pts) by (apply I5; exists b; left; left; reflexivity).
    apply (Permutation_in _ (Permutation_sym (SO pts))) in J. rewrite Eo in J. destruct J. }
  assert (Vs : vert lines start).
  { apply I5. apply (Permutation_in _ (SO pts)). rewrite Eo. left; reflexivity. }
  destruct (RL start Ev Vs) as [ring [M [Ec [Sg [Rg [[tl R1] [pre R2]]]]]]]. rewrite Ec.
  assert (NE : lines <> []) by (intros ->; destruct Vs as [w [[]|[]]]).
  pose proof (seg_eq_length _ _ Sg) as SL. rewrite app_length, lines_length in SL.
  assert (RL1 : List.length ring = S (List.length tl)) by (rewrite R1; reflexivity).
  destruct (Nat.eqb_spec (List.length ring) (List.length lines + 1)) as [Q|Q].
  - assert (M = []) as -> by (destruct M; [reflexivity | cbn [List.length] in SL; lia]).
    rewrite app_nil_r in Sg. split; [|split].
    + split; [exact NE|]. split; [exact Ev|].
      intros a b c d J1 J2.
      assert (RR : forall x y, In (x, y) lines -> reach lines start x).
      { intros x y J.
        assert (In x ring) by (destruct (seg_eq_In' _ _ _ _ Sg J) as [K|K]; apply lines_In in K; tauto).
        pose proof (ring_reach ring x H start tl R1) as R.
        clear - R Sg. induction R as [|u v w R IH X]; [constructor|]. eapply reach_step; [exact IH|].
        destruct X as [X|X]; apply (seg_eq_In _ _ _ _ Sg) in X; tauto. }
      eapply reach_trans; [apply reach_sym, (RR a b J1) | apply (RR c d J2)].
    + destruct Sg as [A' [P F2]]. exists A'. rewrite <- lines_of_pairs. split; assumption.
    + destruct tl as [|t tl].
      * exfalso. destruct lines; [congruence | cbn [List.length] in *; lia].
      * destruct pre as [|x pre]; [rewrite R2 in R1; discriminate|].
        rewrite R2 in R1. cbn in R1. injection R1 as -> R1. exists start, pre. exact R2.
  - intros [_ [_ CN]]. apply Q.
    assert (M = []) as ->.
    2:{ cbn [List.length] in SL. rewrite RL1 in *. lia. }
    destruct M as [|[m1 m2] M]; [reflexivity|]. exfalso.
    assert (Jm : vert lines m1).
    { assert (J : In (m1, m2) (lines_of ring ++ (m1, m2) :: M)) by (rewrite in_app_iff; right; left; reflexivity).
      destruct (seg_eq_In _ _ _ _ Sg J); exists m2; tauto. }
    assert (RC : forall v, reach lines start v -> In v ring).
    { assert (RC0 : In start ring) by (rewrite R1; left; reflexivity).
      intros v R. revert RC0. clear - R Rg Sg. induction R as [u|u v w R IH X]; intros RC0.
      - exact RC0.
      - specialize (IH RC0).
        assert (X' : In (v, w) (lines_of ring ++ (m1, m2) :: M) \/ In (w, v) (lines_of ring ++ (m1, m2) :: M)).
        { destruct X as [X|X]; apply (seg_eq_In' _ _ _ _ Sg) in X; tauto. }
        pose proof (Rg v IH) as NM.
        assert (NV : ~ (In (v, w) ((m1, m2) :: M) \/ In (w, v) ((m1, m2) :: M))).
        { intros K. apply nb_In in K. rewrite NM in K. exact K. }
        rewrite !in_app_iff in X'.
        destruct X' as [[X'|X']|[X'|X']]; try (exfalso; apply NV; tauto); apply lines_In in X'; tauto. }
    assert (reach lines start m1).
    { destruct Vs as [w1 V1], Jm as [w2 V2].
      destruct V1 as [V1|V1], V2 as [V2|V2].
      - exact (CN _ _ _ _ V1 V2).
      - eapply reach_step; [exact (CN _ _ _ _ V1 V2) | tauto].
      - eapply reach_trans; [eapply reach_step; [constructor | right; exact V1] | exact (CN _ _ _ _ V1 V2)].
      - eapply reach_trans; [eapply reach_step; [constructor | right; exact V1] |].
        eapply reach_step; [exact (CN _ _ _ _ V1 V2) | tauto]. }
    apply RC, Rg in H. assert (K : In m2 (nb ((m1, m2) :: M) m1)) by (apply nb_In; left; left; reflexivity).
    rewrite H in K. destruct K.
Qed.

Lemma polygon_spec s order : set_order order ->
  match polygon_from_ese s order with
  | RHang => False
  | RNone => ~ closed_connected_border (border_segments s)
  | RRing ring => closed_connected_border (border_segments s) /\ uses_each_once ring (border_segments s) /\ closed ring
  end.
Proof. rewrite <- border_lines_eq. apply ring_of_spec. Qed.
