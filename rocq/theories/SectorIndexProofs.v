(** Proofs about the sector index. *)
From Coq Require Import Reals Psatz.
From Flocq Require Import Core BinarySingleNaN.
From Verif Require Import Base Float FloatOrder FloatReal Sectors SectorIndex SpecSectorIndex.

(** * Bounding boxes *)
Lemma grow_spec mn mx p : not_nan mn -> not_nan mx -> not_nan p -> SFleb mn mx = true ->
  let '(mn', mx') := grow (mn, mx) p in
  (mn' = mn \/ mn' = p) /\ (mx' = mx \/ mx' = p) /\ SFleb mn' mx' = true /\
  SFleb mn' mn = true /\ SFleb mn' p = true /\ SFleb mx mx' = true /\ SFleb p mx' = true.
Proof.
  intros A B C L. unfold grow, flt, not_nan in *.
  destruct (SFltb mx p) eqn:E1; [|destruct (SFltb p mn) eqn:E2].
  - pose proof (SFltb_le _ _ E1). repeat split; auto using SFleb_refl; eauto using SFleb_trans.
  - pose proof (SFltb_le _ _ E2). repeat split; auto using SFleb_refl; eauto using SFleb_trans.
  - apply SFltb_false in E1; [|assumption..]. apply SFltb_false in E2; [|assumption..].
    repeat split; auto using SFleb_refl.
Qed.

(** One dimension of the bounding rectangle *)
Definition range1 (c : point -> f64) (l : list point) (r : f64 * f64) : Prop :=
  (exists a, In a l /\ fst r = c a) /\ (exists a, In a l /\ snd r = c a) /\
  (forall a, In a l -> SFleb (fst r) (c a) = true /\ SFleb (c a) (snd r) = true).

Lemma range1_fold (c : point -> f64) l : forall l0 r,
  (forall a, In a (l0 ++ l) -> not_nan (c a)) -> range1 c l0 r -> l0 <> [] ->
  range1 c (l0 ++ l) (fold_left (fun r p => grow r (c p)) l r).
Proof.
  induction l as [|p l IH]; intros l0 [mn mx] NN R NE; cbn [fold_left].
  - rewrite app_nil_r. exact R.
  - replace (l0 ++ p :: l) with ((l0 ++ [p]) ++ l) in * by (rewrite <- app_assoc; reflexivity).
    apply IH; [exact NN| |destruct l0; discriminate].
    destruct R as [[a [Ia Ea]] [[b [Ib Eb]] All]]. cbn [fst snd] in *.
    assert (Na : not_nan mn) by (subst mn; apply NN; rewrite !in_app_iff; tauto).
    assert (Nb : not_nan mx) by (subst mx; apply NN; rewrite !in_app_iff; tauto).
    assert (Np : not_nan (c p)) by (apply NN; rewrite !in_app_iff; cbn; tauto).
    assert (L : SFleb mn mx = true).
    { destruct l0 as [|x l0]; [congruence|]. destruct (All x (or_introl eq_refl)). eauto using SFleb_trans. }
    pose proof (grow_spec mn mx (c p) Na Nb Np L) as G. destruct (grow (mn, mx) (c p)) as [mn' mx'].
    destruct G as [G1 [G2 [G3 [G4 [G5 [G6 G7]]]]]]. split; [|split]; cbn [fst snd].
    + destruct G1 as [->| ->]; [exists a | exists p]; rewrite in_app_iff; cbn; auto.
    + destruct G2 as [->| ->]; [exists b | exists p]; rewrite in_app_iff; cbn; auto.
    + intros x I. apply in_app_iff in I. destruct I as [I|[<-|[]]]; [|auto].
      destruct (All x I). eauto using SFleb_trans.
Qed.

Lemma fold_pair l : forall x y,
  fold_left (fun '(x, y) p => (grow x (px p), grow y (py p))) l (x, y) =
  (fold_left (fun r p => grow r (px p)) l x, fold_left (fun r p => grow r (py p)) l y).
Proof. induction l as [|p l IH]; intros x y; cbn [fold_left]; [reflexivity | apply IH]. Qed.

(** The bounding rectangle is attained and bounds every point. *)
Definition box_ok (l : list point) (b : bbox) : Prop :=
  range1 px l (px (b_lo b), px (b_hi b)) /\ range1 py l (py (b_lo b), py (b_hi b)).

Lemma bounding_rect_ok l : (forall p, In p l -> point_ok p) ->
  match bounding_rect l with None => l = [] | Some b => box_ok l b end.
Proof.
  intros NN. destruct l as [|p l]; [reflexivity|]. cbn [bounding_rect].
  rewrite fold_pair.
  assert (R : forall c : point -> f64, (forall a, In a (p :: l) -> not_nan (c a)) ->
    range1 c (p :: l) (fold_left (fun r p => grow r (c p)) l (c p, c p))).
  { intros c N. change (p :: l) with ([p] ++ l). apply range1_fold; [exact N| |discriminate].
    assert (C : not_nan (c p)) by (apply N; left; reflexivity).
    split; [|split]; cbn [fst snd].
    - exists p; cbn; auto.
    - exists p; cbn; auto.
    - intros a [<-|[]]. auto using SFleb_refl. }
  split; cbn [b_lo b_hi px py fst snd].
  - pose proof (R px (fun a I => proj1 (NN a I))) as H.
    destruct (fold_left (fun r p => grow r (px p)) l (px p, px p)). exact H.
  - pose proof (R py (fun a I => proj2 (NN a I))) as H.
    destruct (fold_left (fun r p => grow r (py p)) l (py p, py p)). exact H.
Qed.

(** * The tree search *)
Definition box_le (inner outer : bbox) : Prop :=
  SFleb (px (b_lo outer)) (px (b_lo inner)) = true /\ SFleb (py (b_lo outer)) (py (b_lo inner)) = true /\
  SFleb (px (b_hi inner)) (px (b_hi outer)) = true /\ SFleb (py (b_hi inner)) (py (b_hi outer)) = true.
Definition box_nn (b : bbox) : Prop := point_ok (b_lo b) /\ point_ok (b_hi b).

Lemma box_le_refl b : box_nn b -> box_le b b.
Proof. intros [[A B] [C D]]. repeat split; apply SFleb_refl; assumption. Qed.
Lemma box_le_trans a b c : box_le a b -> box_le b c -> box_le a c.
Proof. intros [A [B [C D]]] [E [F [G H]]]. repeat split; eauto using SFleb_trans. Qed.

Lemma fmin_spec x y : not_nan x -> not_nan y ->
  not_nan (fmin x y) /\ SFleb (fmin x y) x = true /\ SFleb (fmin x y) y = true.
Proof.
  unfold fmin, flt, not_nan. intros A B. destruct (SFltb x y) eqn:E.
  - auto using SFleb_refl, SFltb_le.
  - apply SFltb_false in E; auto using SFleb_refl.
Qed.
Lemma fmax_spec x y : not_nan x -> not_nan y ->
  not_nan (fmax x y) /\ SFleb x (fmax x y) = true /\ SFleb y (fmax x y) = true.
Proof.
  unfold fmax, flt, not_nan. intros A B. destruct (SFltb x y) eqn:E.
  - auto using SFleb_refl, SFltb_le.
  - apply SFltb_false in E; auto using SFleb_refl.
Qed.

Lemma merge_spec a b : box_nn a -> box_nn b ->
  box_nn (merge a b) /\ box_le a (merge a b) /\ box_le b (merge a b).
Proof.
  intros [[A1 A2] [A3 A4]] [[B1 B2] [B3 B4]].
  pose proof (fmin_spec _ _ A1 B1) as [? [? ?]]. pose proof (fmin_spec _ _ A2 B2) as [? [? ?]].
  pose proof (fmax_spec _ _ A3 B3) as [? [? ?]]. pose proof (fmax_spec _ _ A4 B4) as [? [? ?]].
  split; [|split]; repeat split; assumption.
Qed.

Lemma empty_box_nn : box_nn empty_box.
Proof. repeat split; discriminate. Qed.

Lemma fold_merge (f : rtree -> bbox) kids : forall b0, box_nn b0 -> (forall k, In k kids -> box_nn (f k)) ->
  let b := fold_left (fun b k => merge b (f k)) kids b0 in
  box_nn b /\ box_le b0 b /\ (forall k, In k kids -> box_le (f k) b).
Proof.
  induction kids as [|k kids IH]; cbn [fold_left]; intros b0 N K.
  - split; [exact N|]. split; [apply box_le_refl, N | intros k []].
  - assert (Nk : box_nn (f k)) by (apply K; left; reflexivity).
    destruct (merge_spec b0 (f k) N Nk) as [M [L1 L2]].
    destruct (IH (merge b0 (f k)) M) as [A [B C]]; [intros x I; apply K; right; exact I|].
    split; [exact A|]. split; [eapply box_le_trans; eassumption|].
    intros x [<-|I]; [eapply box_le_trans; eassumption | auto].
Qed.

Fixpoint rtree_ind' (P : rtree -> Prop) (HL : forall e, P (RLeaf e))
    (HN : forall kids, (forall k, In k kids -> P k) -> P (RNode kids)) (t : rtree) : P t.
Proof.
  destruct t as [e|kids]; [apply HL|]. apply HN.
  induction kids as [|x kids IH]; intros k I; [destruct I|].
  destruct I as [E|I]; [rewrite <- E; apply (rtree_ind' P HL HN) | exact (IH k I)].
Qed.

Lemma envelope_nn t : (forall e, In e (leaves t) -> box_nn (en_box e)) ->
  box_nn (envelope t) /\ forall e, In e (leaves t) -> box_le (en_box e) (envelope t).
Proof.
  induction t as [e|kids IH] using rtree_ind'; intros N.
  - split; [apply N; left; reflexivity|]. intros x [<-|[]]. apply box_le_refl, N. left. reflexivity.
  - cbn [leaves envelope] in *.
    assert (K : forall k, In k kids -> box_nn (envelope k) /\
                forall e, In e (leaves k) -> box_le (en_box e) (envelope k)).
    { intros k I. apply (IH k I). intros e J. apply N. apply in_flat_map. eauto. }
    destruct (fold_merge envelope kids empty_box empty_box_nn (fun k I => proj1 (K k I))) as [A [_ C]].
    split; [exact A|]. intros e I. apply in_flat_map in I. destruct I as [k [I J]].
    eapply box_le_trans; [apply (K k I), J | apply C, I].
Qed.

(** A test that is monotone in the box finds exactly the leaves passing it. *)
Lemma select_spec test t :
  (forall a b, box_le a b -> test a = true -> test b = true) ->
  (forall e, In e (leaves t) -> box_nn (en_box e)) ->
  select test t = filter (fun e => test (en_box e)) (leaves t).
Proof.
  intros Mono. induction t as [e|kids IH] using rtree_ind'; intros N; [reflexivity|].
  change (select test (RNode kids)) with
    (if test (envelope (RNode kids)) then flat_map (select test) kids else []).
  destruct (test (envelope (RNode kids))) eqn:T; cbn [leaves] in *.
  - clear T. induction kids as [|k kids IHk]; [reflexivity|]. cbn [flat_map] in *.
    rewrite filter_app. f_equal.
    + apply IH; [left; reflexivity|]. intros e I. apply N. rewrite in_app_iff. auto.
    + apply IHk; [intros x I; apply IH; right; exact I|]. intros e I. apply N. rewrite in_app_iff. auto.
  - destruct (filter (fun e => test (en_box e)) (flat_map leaves kids)) as [|e l] eqn:F; [reflexivity|].
    assert (I : In e (e :: l)) by (left; reflexivity). rewrite <- F in I. apply filter_In in I.
    destruct I as [I E]. destruct (envelope_nn (RNode kids) N) as [_ C].
    rewrite (Mono _ _ (C e I) E) in T. discriminate.
Qed.

Lemma box_contains_mono p a b : box_le a b -> box_contains p a = true -> box_contains p b = true.
Proof.
  unfold box_le, box_contains, fle. intros [A [B [C D]]] H.
  apply andb_prop in H. destruct H as [H1 H2]. apply andb_prop in H1, H2.
  rewrite (SFleb_trans _ _ _ A (proj1 H1)), (SFleb_trans _ _ _ B (proj2 H1)),
    (SFleb_trans _ _ _ (proj1 H2) C), (SFleb_trans _ _ _ (proj2 H2) D). reflexivity.
Qed.
Lemma box_meets_mono l a b : box_le a b -> box_meets l a = true -> box_meets l b = true.
Proof.
  unfold box_le, box_meets, fle. intros [A [B [C D]]] H.
  apply andb_prop in H. destruct H as [H1 H2]. apply andb_prop in H1, H2.
  rewrite (SFleb_trans _ _ _ (proj1 H1) C), (SFleb_trans _ _ _ (proj2 H1) D),
    (SFleb_trans _ _ _ A (proj1 H2)), (SFleb_trans _ _ _ B (proj2 H2)). reflexivity.
Qed.

(** * Entries *)
Lemma index_entries_In d b id v :
  In (mkEntry b (id, v)) (index_entries (fst d) (snd d)) <->
  indexed d id v /\ bounding_rect (v_border v) = Some b.
Proof.
  unfold index_entries, indexed. rewrite in_flat_map. split.
  - intros [[k s] [I J]]. destruct (sc_priority s) as [|p ps] eqn:EP; [destruct J|].
    apply in_flat_map in J. destruct J as [vid [J1 J2]].
    destruct (get vid (snd d)) as [v'|] eqn:G; [|destruct J2].
    destruct (bounding_rect (v_border v')) as [b'|] eqn:B; [|destruct J2].
    destruct J2 as [E|[]]. injection E as <- <- <-.
    split; [|exact B]. exists k, s, vid. rewrite EP. repeat split; auto. discriminate.
  - intros [[k [s [vid [I [<- [NE [J G]]]]]]] B]. exists (k, s). split; [exact I|].
    destruct (sc_priority s); [congruence|]. apply in_flat_map. exists vid. split; [exact J|].
    rewrite G, B. left. reflexivity.
Qed.

Lemma entry_box d e : data_ok d -> In e (index_entries (fst d) (snd d)) ->
  indexed d (fst (en_data e)) (snd (en_data e)) /\ box_ok (v_border (snd (en_data e))) (en_box e) /\ box_nn (en_box e).
Proof.
  intros OK I. destruct e as [b [id v]]. cbn [en_data en_box fst snd].
  apply index_entries_In in I. destruct I as [IX B].
  assert (PO : forall p, In p (v_border v) -> point_ok p).
  { intros p J. destruct IX as [k [s [vid [_ [_ [_ [_ G]]]]]]]. exact (OK vid v p G J). }
  pose proof (bounding_rect_ok (v_border v) PO) as R. rewrite B in R.
  split; [exact IX|]. split; [exact R|].
  destruct R as [[[a1 [I1 E1]] [[a2 [I2 E2]] _]] [[a3 [I3 E3]] [[a4 [I4 E4]] _]]]. cbn [fst snd] in *.
  split; split; unfold not_nan.
  - rewrite E1. apply (PO a1 I1).
  - rewrite E3. apply (PO a3 I3).
  - rewrite E2. apply (PO a2 I2).
  - rewrite E4. apply (PO a4 I4).
Qed.

Lemma border_nonempty_rect l : l <> [] -> exists b, bounding_rect l = Some b.
Proof.
  destruct l as [|p l]; [congruence|]. intros _. cbn [bounding_rect].
  destruct (fold_left (fun '(x, y) p => (grow x (px p), grow y (py p))) l (px p, px p, (py p, py p))).
  eexists. reflexivity.
Qed.

Lemma within_box l b p : box_ok l b -> within l p -> box_contains p b = true.
Proof.
  intros [[_ [_ X]] [_ [_ Y]]] [[a [a' [I [I' [A A']]]]] [c [c' [J [J' [C C']]]]]].
  cbn [fst snd] in X, Y. unfold box_contains, fle.
  rewrite (SFleb_trans _ _ _ (proj1 (X a I)) A), (SFleb_trans _ _ _ (proj1 (Y c J)) C),
    (SFleb_trans _ _ _ A' (proj2 (X a' I'))), (SFleb_trans _ _ _ C' (proj2 (Y c' J'))). reflexivity.
Qed.

Section Index.
  Variable load : list entry -> rtree.
  Variable contains : list point -> point -> bool.
  Hypothesis LD : load_ok load.

  Lemma leaves_nn d : data_ok d -> forall e, In e (leaves (build_tree load d)) -> box_nn (en_box e).
  Proof.
    intros OK e I. apply (Permutation_in _ (LD _)) in I. apply entry_box in I; [tauto | exact OK].
  Qed.

  Lemma select_In d test : data_ok d -> (forall a b, box_le a b -> test a = true -> test b = true) ->
    forall e, In e (select test (build_tree load d)) <->
              In e (index_entries (fst d) (snd d)) /\ test (en_box e) = true.
  Proof.
    intros OK M e. rewrite select_spec; [|exact M|apply leaves_nn, OK].
    rewrite filter_In. split; intros [I T]; (split; [|exact T]).
    - exact (Permutation_in _ (LD _) I).
    - exact (Permutation_in _ (Permutation_sym (LD _)) I).
  Qed.

  Lemma volumes_at_spec d p : contains_ok contains -> data_ok d -> forall id v,
    In (id, v) (volumes_at contains (build_tree load d) p) <->
    indexed d id v /\ contains (v_border v) p = true.
  Proof.
    intros CO OK id v. unfold volumes_at. rewrite filter_In, in_map_iff. cbn [snd]. split.
    - intros [[e [E I]] C]. split; [|exact C].
      apply select_In in I; [|exact OK|apply box_contains_mono]. destruct I as [I _].
      apply entry_box in I; [|exact OK]. rewrite E in I. apply I.
    - intros [IX C]. split; [|exact C].
      pose proof (CO _ _ C) as W.
      assert (NE : v_border v <> []) by (destruct W as [[a [_ [I _]]] _]; intros E; rewrite E in I; destruct I).
      destruct (border_nonempty_rect _ NE) as [b B].
      exists (mkEntry b (id, v)). split; [reflexivity|].
      assert (I : In (mkEntry b (id, v)) (index_entries (fst d) (snd d))) by (apply index_entries_In; auto).
      apply select_In; [exact OK | apply box_contains_mono |]. split; [exact I|].
      apply entry_box in I; [|exact OK]. eapply within_box; [apply I | exact W].
  Qed.

  Lemma ord_spec u v : not_nan u -> not_nan v ->
    let '(x, y) := if flt u v then (u, v) else (v, u) in
    (x = u \/ x = v) /\ (y = u \/ y = v) /\ SFleb x u = true /\ SFleb x v = true /\
    SFleb u y = true /\ SFleb v y = true.
  Proof.
    intros A B. unfold flt, not_nan in *. destruct (SFltb u v) eqn:E.
    - pose proof (SFltb_le _ _ E). auto 10 using SFleb_refl.
    - apply SFltb_false in E; [|assumption..]. auto 10 using SFleb_refl.
  Qed.

  Lemma overlap_spec (c : point -> f64) border r a b lo hi :
    range1 c border r ->
    (lo = c a \/ lo = c b) -> (hi = c a \/ hi = c b) ->
    SFleb lo (c a) = true -> SFleb lo (c b) = true -> SFleb (c a) hi = true -> SFleb (c b) hi = true ->
    (SFleb lo (snd r) = true /\ SFleb (fst r) hi = true <->
     (exists u w, In u border /\ In w [a; b] /\ SFleb (c u) (c w) = true) /\
     (exists u w, In u border /\ In w [a; b] /\ SFleb (c w) (c u) = true)).
  Proof.
    intros [[m [Im Em]] [[M [IM EM]] All]] EL EH La Lb Ha Hb. split.
    - intros [A B]. split.
      + exists m. destruct EH as [->| ->]; [exists a | exists b]; cbn; rewrite <- Em; auto.
      + exists M. destruct EL as [->| ->]; [exists a | exists b]; cbn; rewrite <- EM; auto.
    - intros [[u [w [Iu [Iw A]]]] [u' [w' [Iu' [Iw' B]]]]]. split.
      + eapply SFleb_trans; [|eapply SFleb_trans; [exact B | apply (All u' Iu')]].
        destruct Iw' as [<-|[<-|[]]]; assumption.
      + eapply SFleb_trans; [apply (All u Iu) | eapply SFleb_trans; [exact A|]].
        destruct Iw as [<-|[<-|[]]]; assumption.
  Qed.

  Lemma meets_spec border bx a b : box_ok border bx -> point_ok a -> point_ok b ->
    (box_meets (line_box a b) bx = true <-> near_line border a b).
  Proof.
    intros [RX RY] [Ax Ay] [Bx By]. unfold near_line, box_meets, line_box, fle.
    pose proof (ord_spec (px a) (px b) Ax Bx) as OX. pose proof (ord_spec (py a) (py b) Ay By) as OY.
    destruct (if flt (px a) (px b) then (px a, px b) else (px b, px a)) as [lx hx].
    destruct (if flt (py a) (py b) then (py a, py b) else (py b, py a)) as [ly hy].
    destruct OX as [X1 [X2 [X3 [X4 [X5 X6]]]]], OY as [Y1 [Y2 [Y3 [Y4 [Y5 Y6]]]]].
    pose proof (overlap_spec px border _ a b lx hx RX X1 X2 X3 X4 X5 X6) as PX.
    pose proof (overlap_spec py border _ a b ly hy RY Y1 Y2 Y3 Y4 Y5 Y6) as PY.
    cbn [b_lo b_hi px py fst snd] in *. rewrite <- PX, <- PY, !andb_true_iff. tauto.
  Qed.

  Lemma volumes_near_line_spec d a b : data_ok d -> point_ok a -> point_ok b -> forall id v,
    In (id, v) (volumes_near_line (build_tree load d) a b) <->
    indexed d id v /\ near_line (v_border v) a b.
  Proof.
    intros OK A B id v. unfold volumes_near_line. rewrite in_map_iff. split.
    - intros [e [E I]]. apply select_In in I; [|exact OK|apply box_meets_mono]. destruct I as [I T].
      apply entry_box in I; [|exact OK]. rewrite E in I. cbn [fst snd] in I. destruct I as [IX [R _]].
      split; [exact IX|]. apply (meets_spec _ _ _ _ R A B). exact T.
    - intros [IX N].
      assert (NE : v_border v <> []).
      { destruct N as [[[u [w [I _]]] _] _]. intros E. rewrite E in I. destruct I. }
      destruct (border_nonempty_rect _ NE) as [bx R].
      exists (mkEntry bx (id, v)). split; [reflexivity|].
      assert (I : In (mkEntry bx (id, v)) (index_entries (fst d) (snd d))) by (apply index_entries_In; auto).
      apply select_In; [exact OK | apply box_meets_mono |]. split; [exact I|].
      apply entry_box in I; [|exact OK]. apply (meets_spec (v_border v)); [apply I | assumption..].
  Qed.
End Index.

(** * Least text *)
Lemma text_leb_spec a : forall b, text_leb a b = true <-> alpha_le a b.
Proof.
  induction a as [|x a IH]; intros [|y b]; cbn [text_leb].
  - split; [intros _; constructor | reflexivity].
  - split; [intros _; constructor | reflexivity].
  - split; [discriminate | intros H; inversion H].
  - rewrite orb_true_iff, andb_true_iff, N.ltb_lt, N.eqb_eq, IH. split.
    + intros [L|[-> L]]; constructor; assumption.
    + intros H; inversion H; subst; auto.
Qed.
Lemma alpha_refl a : alpha_le a a.
Proof. induction a; constructor; assumption. Qed.
Lemma alpha_trans a : forall b c, alpha_le a b -> alpha_le b c -> alpha_le a c.
Proof.
  induction a as [|x a IH]; intros b c A B; [constructor|].
  inversion A; subst; inversion B; subst; try (constructor; lia); try (constructor; assumption).
  apply alpha_eq. eauto.
Qed.
Lemma alpha_total a : forall b, alpha_le a b \/ alpha_le b a.
Proof.
  induction a as [|x a IH]; intros [|y b]; try solve [left; constructor]; try solve [right; constructor].
  destruct (N.lt_trichotomy x y) as [L|[->|L]]; [left; apply alpha_lt; exact L| |right; apply alpha_lt; exact L].
  destruct (IH b); [left | right]; apply alpha_eq; assumption.
Qed.

Lemma min_text_spec l :
  match min_text l with
  | None => l = []
  | Some m => In m l /\ forall x, In x l -> alpha_le m x
  end.
Proof.
  destruct l as [|x l]; [reflexivity|]. cbn [min_text].
  assert (G : forall l0 m, In m l0 -> (forall y, In y l0 -> alpha_le m y) ->
    let m' := fold_left (fun m y => if text_leb m y then m else y) l m in
    In m' (l0 ++ l) /\ forall y, In y (l0 ++ l) -> alpha_le m' y).
  { induction l as [|y l IH]; intros l0 m I L; cbn [fold_left].
    - rewrite app_nil_r. auto.
    - replace (l0 ++ y :: l) with ((l0 ++ [y]) ++ l) by (rewrite <- app_assoc; reflexivity).
      apply IH; destruct (text_leb m y) eqn:E.
      + rewrite in_app_iff; auto.
      + rewrite in_app_iff; cbn; auto.
      + intros z J. apply in_app_iff in J. destruct J as [J|[<-|[]]]; [auto | apply text_leb_spec, E].
      + intros z J. assert (N : ~ alpha_le m y) by (rewrite <- text_leb_spec; congruence).
        destruct (alpha_total m y) as [T|T]; [contradiction|].
        apply in_app_iff in J. destruct J as [J|[<-|[]]]; [eauto using alpha_trans | apply alpha_refl]. }
  apply (G [x] x); [left; reflexivity|]. intros y [<-|[]]. apply alpha_refl.
Qed.

(** * Levels *)
Lemma level_in_spec v level : f32_ok level ->
  (v_lower v < 16777216)%N -> (v_upper v < 16777216)%N ->
  (level_in level v = true <-> is_at_level v level).
Proof.
  intros [V F] L U. unfold level_in, is_at_level, f32_of_Z.
  destruct (of_Z_exact 24 128 _ _ (Z.of_N (v_lower v))) as [bl [El [Rl Fl]]]; [lia|lia|].
  destruct (of_Z_exact 24 128 _ _ (Z.of_N (v_upper v))) as [bu [Eu [Ru Fu]]]; [lia|lia|].
  pose (bx := SF2B level V). assert (EX : level = B2SF bx) by (unfold bx; rewrite B2SF_SF2B; reflexivity).
  assert (FX : is_finite bx = true) by (unfold bx; rewrite is_finite_SF2B; exact F).
  rewrite El, Eu, EX, andb_true_iff.
  rewrite (SFleb_real 24 128 bl bx Fl FX), (SFltb_real 24 128 bx bu FX Fu), Rl, Ru.
  rewrite SF2R_B2SF. tauto.
Qed.

(** * History *)
Lemma run_app load a l l' : run load a (l ++ l') = run load (run load a l) l'.
Proof. apply fold_left_app. Qed.

Lemma cached_stays load l : forall a t, no_rebuild l -> ad_cache a = Some t ->
  ad_cache (run load a l) = Some t.
Proof.
  induction l as [|o l IH]; intros a t NR C; [exact C|]. cbn [run fold_left].
  apply IH; [intros I; apply NR; right; exact I|].
  destruct o; cbn [step]; try exact C.
  - exfalso. apply NR. left. reflexivity.
  - cbn [ad_cache]. rewrite C. reflexivity.
  - unfold get_or_build. rewrite C. exact C.
Qed.

Lemma uncached_stays load l : forall a, untouched l -> ad_cache a = None -> ad_cache (run load a l) = None.
Proof.
  induction l as [|o l IH]; intros a [NR NQ] C; [exact C|]. cbn [run fold_left].
  apply IH; [split; intros I; [apply NR | apply NQ]; right; exact I|].
  destruct o; cbn [step ad_cache]; try exact C.
  - exfalso. apply NR. left. reflexivity.
  - rewrite C. reflexivity.
  - exfalso. apply NQ. left. reflexivity.
Qed.

Lemma tree_after_rebuild load a pre post : no_rebuild post ->
  fst (get_or_build load (run load a (pre ++ ORebuild :: post))) =
  build_tree load (ad_data (run load a pre)).
Proof.
  intros NR. rewrite run_app. change (run load (run load a pre) (ORebuild :: post)) with
    (run load (step load (run load a pre) ORebuild) post).
  unfold get_or_build. rewrite (cached_stays load post _ (build_tree load (ad_data (run load a pre))) NR); reflexivity.
Qed.

Lemma tree_first_query load d pre : untouched pre ->
  fst (get_or_build load (run load (mkAdaptation d None) pre)) =
  build_tree load (ad_data (run load (mkAdaptation d None) pre)).
Proof. intros U. unfold get_or_build. rewrite (uncached_stays load pre (mkAdaptation d None) U eq_refl). reflexivity. Qed.

Lemma tree_after_query load d pre post : untouched pre -> no_rebuild post ->
  fst (get_or_build load (run load (mkAdaptation d None) (pre ++ OQuery :: post))) =
  build_tree load (ad_data (run load (mkAdaptation d None) pre)).
Proof.
  intros U NR. rewrite run_app.
  set (a := run load (mkAdaptation d None) pre).
  change (run load a (OQuery :: post)) with (run load (step load a OQuery) post).
  assert (C : ad_cache a = None) by (apply uncached_stays; [exact U | reflexivity]).
  unfold get_or_build. rewrite (cached_stays load post _ (build_tree load (ad_data a)) NR); [reflexivity|].
  cbn [step]. unfold get_or_build. rewrite C. reflexivity.
Qed.

Lemma data_run load l : forall a, ad_data (run load a l) =
  fold_left (fun d o => match o with OMutate f => f d | _ => d end) l (ad_data a).
Proof.
  induction l as [|o l IH]; intros a; [reflexivity|]. cbn [run fold_left]. fold (run load (step load a o) l).
  rewrite IH. destruct o; cbn [step ad_data]; try reflexivity.
  unfold get_or_build. destruct (ad_cache a); reflexivity.
Qed.

Lemma find_sector_spec load contains d p level :
  load_ok load -> contains_ok contains -> data_ok d -> f32_ok level ->
  (forall id v, indexed d id v -> (v_lower v < 16777216)%N /\ (v_upper v < 16777216)%N) ->
  match find_sector contains (build_tree load d) p level with
  | Some id => candidate contains d p level id /\ forall id', candidate contains d p level id' -> alpha_le id id'
  | None => forall id, ~ candidate contains d p level id
  end.
Proof.
  intros LD CO OK F LV. unfold find_sector.
  set (l := map fst (filter (fun e => level_in level (snd e)) (volumes_at contains (build_tree load d) p))).
  assert (C : forall id, In id l <-> candidate contains d p level id).
  { intros id. unfold l. rewrite in_map_iff. unfold candidate. split.
    - intros [[id' v] [E I]]. cbn [fst] in E. subst id'. apply filter_In in I. destruct I as [I L].
      apply volumes_at_spec in I; [|assumption..]. exists v. destruct I as [IX I].
      split; [exact IX|]. split; [exact I|]. apply level_in_spec; [exact F|apply (LV _ _ IX)..|exact L].
    - intros [v [IX [I L]]]. exists (id, v). split; [reflexivity|]. apply filter_In. split.
      + apply volumes_at_spec; auto.
      + apply level_in_spec; [exact F|apply (LV _ _ IX)..|exact L]. }
  pose proof (min_text_spec l) as M. destruct (min_text l) as [m|].
  - destruct M as [I A]. split; [apply C, I|]. intros id' J. apply A, C, J.
  - intros id J. apply C in J. rewrite M in J. destruct J.
Qed.

Lemma alpha_antisym a : forall b, alpha_le a b -> alpha_le b a -> a = b.
Proof.
  induction a as [|x a IH]; intros b A B; inversion A; subst; inversion B; subst;
    first [reflexivity | lia | f_equal; auto].
Qed.

Lemma indexed_perm secs secs' vols vols' id v : NoDup (keys vols) ->
  Permutation secs secs' -> Permutation vols vols' ->
  indexed (secs, vols) id v -> indexed (secs', vols') id v.
Proof.
  intros ND P Q [k [s [vid [I [E [NE [J G]]]]]]]. exists k, s, vid. cbn [fst snd] in *.
  repeat split; try assumption; [eapply Permutation_in; eassumption|].
  rewrite <- (get_perm vid vols vols' ND Q). exact G.
Qed.

Lemma find_sector_order load load' contains secs secs' vols vols' p level :
  load_ok load -> load_ok load' -> contains_ok contains ->
  data_ok (secs, vols) -> f32_ok level ->
  (forall id v, indexed (secs, vols) id v -> (v_lower v < 16777216)%N /\ (v_upper v < 16777216)%N) ->
  NoDup (keys vols) -> Permutation secs secs' -> Permutation vols vols' ->
  q_find load contains (mkAdaptation (secs, vols) None) p level =
  q_find load' contains (mkAdaptation (secs', vols') None) p level.
Proof.
  intros LD LD' CO OK F LV ND P Q.
  assert (ND' : NoDup (keys vols')).
  { eapply Permutation_NoDup; [apply Permutation_map, Q | exact ND]. }
  assert (OK' : data_ok (secs', vols')).
  { intros vid v q G I. cbn [snd] in G. rewrite <- (get_perm vid vols vols' ND Q) in G. exact (OK vid v q G I). }
  assert (LV' : forall id v, indexed (secs', vols') id v -> (v_lower v < 16777216)%N /\ (v_upper v < 16777216)%N).
  { intros id v I. apply (LV id v). eapply indexed_perm; [exact ND'|symmetry; exact P|symmetry; exact Q|exact I]. }
  assert (CC : forall id, candidate contains (secs, vols) p level id <-> candidate contains (secs', vols') p level id).
  { intros id. split; intros [v [I R]]; exists v; (split; [|exact R]).
    - exact (indexed_perm _ _ _ _ _ _ ND P Q I).
    - eapply indexed_perm; [exact ND'|symmetry; exact P|symmetry; exact Q|exact I]. }
  pose proof (find_sector_spec load contains _ p level LD CO OK F LV) as A.
  pose proof (find_sector_spec load' contains _ p level LD' CO OK' F LV') as B.
  unfold q_find, get_or_build; cbn [ad_cache fst ad_data].
  destruct (find_sector contains (build_tree load (secs, vols)) p level) as [x|],
    (find_sector contains (build_tree load' (secs', vols')) p level) as [y|].
  - destruct A as [A1 A2], B as [B1 B2]. f_equal. apply alpha_antisym; [apply A2, CC, B1 | apply B2, CC, A1].
  - destruct A as [A1 _]. apply CC in A1. destruct (B _ A1).
  - destruct B as [B1 _]. apply CC in B1. destruct (A _ B1).
  - reflexivity.
Qed.

Lemma huge_levels_refuted : exists v level,
  f32_ok level /\ level_in level v = true /\ ~ is_at_level v level.
Proof.
  exists (mkVolume [] 16777217 20000000 []), (f32_of_Z 16777216).
  split; [split; vm_compute; reflexivity|]. split; [vm_compute; reflexivity|].
  unfold is_at_level. cbn [v_lower v_upper].
  replace (SF2R radix2 (f32_of_Z 16777216)) with (IZR 16777216).
  - intros [A _]. apply le_IZR in A. revert A. vm_compute. congruence.
  - replace (f32_of_Z 16777216) with (S754_finite false 8388608 1) by (vm_compute; reflexivity).
    cbn [SF2R]. unfold F2R; cbn [Fnum Fexp cond_Zopp bpow]. rewrite <- mult_IZR. reflexivity.
Qed.
