(** Proofs about the folders TopSky maps are filed in. *)
From Coq Require Import ZifyBool ZifyN ZifyNat.
From Verif Require Import Base Num NumProofs Float FloatParse Colours Settings Locations Maps SpecMaps MapsProofs.

Lemma has_In {K V} `{EqDec K} (k : K) (m : list (K * V)) : has k m = true <-> In k (keys m).
Proof.
  unfold has. destruct (get k m) as [v|] eqn:E.
  - split; [intros _; eapply get_Some_key, E | reflexivity].
  - apply get_None in E. split; [discriminate | contradiction].
Qed.
Lemma put_absent {K V} `{EqDec K} (k : K) (v : V) m : ~ In k (keys m) -> put k v m = m ++ [(k, v)].
Proof.
  induction m as [|[k' v'] m IH]; cbn; intros N; [reflexivity|].
  destruct (eq_dec k k') as [->|ne]; [exfalso; apply N; left; reflexivity|]. rewrite IH by tauto. reflexivity.
Qed.
Lemma put_present {K V} `{EqDec K} (k : K) (v0 : V) m : get k m = Some v0 ->
  exists a b, m = a ++ (k, v0) :: b /\ ~ In k (keys a) /\ forall v, put k v m = a ++ (k, v) :: b.
Proof.
  induction m as [|[k' v'] m IH]; cbn; [discriminate|].
  destruct (eq_dec k k') as [->|ne].
  - intros E; injection E as ->. exists [], m. cbn. auto.
  - intros E. destruct (IH E) as [a [b [-> [NI P]]]]. exists ((k', v') :: a), b.
    split; [reflexivity|]. split; [cbn; intuition congruence|]. intros v. rewrite P. reflexivity.
Qed.

(** * The free suffix *)
Lemma suffixed_eq name i : suffixed name i = with_suffix name i.
Proof. reflexivity. Qed.
Lemma suffixed_inj name i j : suffixed name i = suffixed name j -> i = j.
Proof.
  unfold suffixed. intros E. apply app_inv_head in E. injection E as E.
  assert (D : forall k, pad_left 48 0 (fmt_uint 10 k) = fmt_uint 10 k) by (intros k; unfold pad_left; reflexivity).
  pose proof (digits_pad_fmt 10 0 i ltac:(lia) ltac:(lia)) as A. pose proof (digits_pad_fmt 10 0 j ltac:(lia) ltac:(lia)) as B.
  rewrite D in A, B. rewrite E in A. congruence.
Qed.

Lemma free_index_some {V} fuel name (maps : list (text * V)) : forall i j, free_index fuel name maps i = Some j ->
  (i <= j)%N /\ ~ In (suffixed name j) (keys maps) /\ forall x, (i <= x < j)%N -> In (suffixed name x) (keys maps).
Proof.
  induction fuel as [|fuel IH]; intros i j E; cbn [free_index] in E; destruct (has (suffixed name i) maps) eqn:H.
  - discriminate.
  - injection E as <-. split; [lia|]. split; [rewrite <- has_In; congruence | lia].
  - apply IH in E. destruct E as [L [N A]]. split; [lia|]. split; [exact N|]. intros x Hx.
    destruct (N.eq_dec x i) as [->|]; [apply has_In, H | apply A; lia].
  - injection E as <-. split; [lia|]. split; [rewrite <- has_In; congruence | lia].
Qed.
Lemma free_index_none {V} fuel name (maps : list (text * V)) : forall i, free_index fuel name maps i = None ->
  forall k, (k <= fuel)%nat -> In (suffixed name (i + N.of_nat k)) (keys maps).
Proof.
  induction fuel as [|fuel IH]; intros i E k L; cbn [free_index] in E; destruct (has (suffixed name i) maps) eqn:H; try discriminate.
  - assert (k = 0) by lia. subst k. rewrite N.add_0_r. apply has_In, H.
  - destruct k as [|k]; [rewrite N.add_0_r; apply has_In, H|].
    replace (i + N.of_nat (S k))%N with (i + 1 + N.of_nat k)%N by lia. apply IH; [exact E | lia].
Qed.
Lemma free_index_total {V} name (maps : list (text * V)) i : free_index (List.length maps) name maps i <> None.
Proof.
  intros E. pose proof (free_index_none _ _ _ _ E) as A.
  set (cands := map (fun k => suffixed name (i + N.of_nat k)) (seq 0 (S (List.length maps)))).
  assert (ND : NoDup cands).
  { apply FinFun.Injective_map_NoDup; [|apply seq_NoDup]. intros x y H. apply suffixed_inj in H. lia. }
  assert (IN : incl cands (keys maps)).
  { intros x Hx. apply in_map_iff in Hx. destruct Hx as [k [<- Hk]]. apply in_seq in Hk. apply A. lia. }
  pose proof (NoDup_incl_length ND IN) as L. unfold cands, keys in L. rewrite !map_length, seq_length in L. lia.
Qed.

(** * All maps *)
Lemma all_maps_In folders f n m : In (f, n, m) (all_maps folders) <-> exists fo, In (f, fo) folders /\ In (n, m) (fo_maps fo).
Proof.
  unfold all_maps. rewrite in_flat_map. split.
  - intros [[f' fo] [I J]]. apply in_map_iff in J. destruct J as [[n' m'] [E J]]. cbn in E. injection E as <- <- <-. eauto.
  - intros [fo [I J]]. exists (f, fo). split; [exact I|]. apply in_map_iff. exists (n, m). auto.
Qed.
Lemma all_maps_key folders f n : In (f, n) (map fst (all_maps folders)) <->
  exists fo, In (f, fo) folders /\ In n (keys (fo_maps fo)).
Proof.
  rewrite in_map_iff. split.
  - intros [[[f' n'] m] [E I]]. cbn in E. injection E as -> ->. apply all_maps_In in I. destruct I as [fo [I J]].
    exists fo. split; [exact I|]. apply (in_map fst) in J. exact J.
  - intros [fo [I J]]. apply in_map_iff in J. destruct J as [[n' m] [E J]]. cbn in E. subst n'.
    exists (f, n, m). split; [reflexivity|]. apply all_maps_In. eauto.
Qed.
Lemma all_maps_app a b : all_maps (a ++ b) = all_maps a ++ all_maps b.
Proof. apply flat_map_app. Qed.

Lemma all_maps_NoDup folders : NoDup (keys folders) ->
  (forall f fo, In (f, fo) folders -> NoDup (keys (fo_maps fo))) -> NoDup (map fst (all_maps folders)).
Proof.
  induction folders as [|[f fo] folders IH]; intros ND A; [constructor|].
  cbn [keys map fst] in ND. inversion ND as [|? ? NI ND']; subst.
  change (all_maps ((f, fo) :: folders)) with (map (fun x => (f, fst x, snd x)) (fo_maps fo) ++ all_maps folders).
  rewrite map_app, map_map. cbn [fst].
  assert (ND1 : NoDup (map (fun x : text * map_ => (f, fst x)) (fo_maps fo))).
  { rewrite <- (map_map fst (fun n => (f, n))). apply FinFun.Injective_map_NoDup; [intros x y E; congruence|].
    apply (A f fo). left. reflexivity. }
  specialize (IH ND' (fun f' fo' I => A f' fo' (or_intror I))). revert ND1 IH.
  assert (DIS : forall x, In x (map (fun x : text * map_ => (f, fst x)) (fo_maps fo)) -> ~ In x (map fst (all_maps folders))).
  { intros x I J. apply in_map_iff in I. destruct I as [y [<- _]]. apply all_maps_key in J. destruct J as [fo' [J _]].
    apply NI. apply (in_map fst) in J. exact J. }
  revert DIS. generalize (map (fun x : text * map_ => (f, fst x)) (fo_maps fo)) as l1. generalize (map fst (all_maps folders)) as l2.
  intros l2 l1. induction l1 as [|x l1 IH1]; intros DIS N1 N2; cbn; [exact N2|].
  inversion N1; subst. constructor.
  - rewrite in_app_iff. intros [I|I]; [contradiction|]. apply (DIS x); [left; reflexivity | exact I].
  - apply IH1; auto. intros y I. apply DIS. right. exact I.
Qed.

(** * Filing *)
Definition good_folder (auto : text) (ov : list override_sct) (f : text) (fo : folder) : Prop :=
  fo_name fo = f /\ (fo_hidden fo = true <-> f = auto \/ In (f, None) ov) /\ fo_maps fo <> [].
Record filed (auto : text) (ov : list override_sct) (folders : list (text * folder)) (used : list (text * text)) : Prop := {
  fi_keys : NoDup (keys folders);
  fi_names : forall f fo, In (f, fo) folders -> NoDup (keys (fo_maps fo));
  fi_used : forall f n, In (f, n) used <-> In (f, n) (map fst (all_maps folders));
  fi_good : forall f fo, In (f, fo) folders -> good_folder auto ov f fo }.

Lemma rename_own m : rename m (m_name m) = m.
Proof. destruct m; reflexivity. Qed.

Lemma existsb_override ov f : existsb (fun o : override_sct => eqb o (f, None)) ov = true <-> In (f, None) ov.
Proof.
  rewrite existsb_exists. split.
  - intros [x [I E]]. rewrite eqb_true in E. subst x; exact I.
  - intros I. exists (f, None). split; [exact I | apply eqb_refl].
Qed.

Lemma file_map_spec auto ov folders used m : filed auto ov folders used ->
  exists folders' n, file_map auto ov folders m = Some folders' /\ filed_as used m n /\
    filed auto ov folders' ((m_folder m, n) :: used) /\
    Permutation (all_maps folders') ((m_folder m, n, rename m n) :: all_maps folders).
Proof.
  intros [KD NN US GD]. unfold file_map. destruct (get (m_folder m) folders) as [fo|] eqn:G.
  - pose proof (get_In _ _ _ G) as GI.
    assert (INU : forall n, In (m_folder m, n) used <-> In n (keys (fo_maps fo))).
    { intros n. rewrite US, all_maps_key. split.
      - intros [fo' [I J]]. rewrite (In_get _ _ _ KD I) in G. congruence.
      - intros J. exists fo. auto. }
    assert (INS : forall n, ~ In n (keys (fo_maps fo)) -> filed_as used m n ->
      exists folders' n0, Some (put (m_folder m) (mkFolder (fo_name fo) (fo_hidden fo) (put n (rename m n) (fo_maps fo))) folders) = Some folders' /\
        filed_as used m n0 /\ filed auto ov folders' ((m_folder m, n0) :: used) /\
        Permutation (all_maps folders') ((m_folder m, n0, rename m n0) :: all_maps folders)).
    { intros n NI FA. rewrite (put_absent n _ _ NI).
      destruct (put_present _ _ _ G) as [a [b [EQ [NA P]]]]. rewrite P. eexists _, n. split; [reflexivity|]. split; [exact FA|].
      set (fo' := mkFolder (fo_name fo) (fo_hidden fo) (fo_maps fo ++ [(n, rename m n)])).
      assert (PM : Permutation (all_maps (a ++ (m_folder m, fo') :: b)) ((m_folder m, n, rename m n) :: all_maps folders)).
      { rewrite EQ, !all_maps_app.
        change (all_maps ((m_folder m, fo') :: b)) with (map (fun x => (m_folder m, fst x, snd x)) (fo_maps fo ++ [(n, rename m n)]) ++ all_maps b).
        change (all_maps ((m_folder m, fo) :: b)) with (map (fun x => (m_folder m, fst x, snd x)) (fo_maps fo) ++ all_maps b).
        rewrite map_app. cbn [map fst snd]. rewrite <- app_assoc. cbn [app].
        rewrite !app_assoc. rewrite <- Permutation_middle. reflexivity. }
      split; [|exact PM]. constructor.
      - rewrite <- P. apply NoDup_put, KD.
      - intros f fo0 I. rewrite <- P in I. apply In_get in I; [|apply NoDup_put, KD]. rewrite get_put in I.
        destruct (eq_dec f (m_folder m)) as [->|]; [|apply (NN f), get_In, I]. injection I as <-. cbn [fo_maps fo'].
        unfold keys. rewrite map_app. cbn [map fst].
        apply (Permutation_NoDup (Permutation_app_comm [n] (map fst (fo_maps fo)))). cbn [app].
        constructor; [exact NI | apply (NN (m_folder m)), GI].
      - intros f x. cbn [In]. rewrite US.
        assert (PK : Permutation (map fst (all_maps (a ++ (m_folder m, fo') :: b))) ((m_folder m, n) :: map fst (all_maps folders)))
          by (apply (Permutation_map fst) in PM; exact PM).
        split.
        + intros I. eapply Permutation_in; [apply Permutation_sym, PK|]. cbn [In]. intuition.
        + intros I. eapply Permutation_in in I; [|exact PK]. cbn [In] in I. intuition.
      - intros f fo0 I. rewrite <- P in I. apply In_get in I; [|apply NoDup_put, KD]. rewrite get_put in I.
        destruct (eq_dec f (m_folder m)) as [->|]; [|apply (GD f), get_In, I]. injection I as <-.
        destruct (GD _ _ GI) as [A [B C]]. split; [exact A|]. split; [exact B|]. cbn. destruct (fo_maps fo); discriminate. }
    destruct (has (m_name m) (fo_maps fo)) eqn:H.
    + rewrite has_In in H. destruct (free_index _ _ _ _) as [i|] eqn:F; [|exfalso; eapply free_index_total, F].
      apply free_index_some in F. destruct F as [L [NI A]]. apply INS; [exact NI|]. right. split; [apply INU, H|].
      exists i. split; [exact L|]. split; [reflexivity|]. split; [rewrite INU; exact NI|].
      intros j J. apply INU. apply A. lia.
    + assert (NI : ~ In (m_name m) (keys (fo_maps fo))) by (rewrite <- has_In; congruence).
      apply INS; [exact NI|]. left. rewrite INU. auto.
  - assert (NF : ~ In (m_folder m) (keys folders)) by (apply get_None, G).
    rewrite (put_absent _ _ _ NF). eexists _, (m_name m). split; [reflexivity|].
    assert (NU : forall n, ~ In (m_folder m, n) used).
    { intros n I. apply US, all_maps_key in I. destruct I as [fo [I _]]. apply NF. apply (in_map fst) in I. exact I. }
    split; [left; auto|].
    set (fo := mkFolder (m_folder m) _ _).
    assert (PM : Permutation (all_maps (folders ++ [(m_folder m, fo)])) ((m_folder m, m_name m, rename m (m_name m)) :: all_maps folders)).
    { rewrite all_maps_app, rename_own. cbn. apply Permutation_sym, Permutation_cons_append. }
    split; [|exact PM]. constructor.
    + unfold keys. rewrite map_app. cbn [map fst]. apply (Permutation_NoDup (Permutation_cons_append _ _)). constructor; [exact NF | exact KD].
    + intros f fo0 I. apply in_app_iff in I. destruct I as [I|[E|[]]]; [apply (NN f), I|]. injection E as <- <-. cbn.
      constructor; [tauto | constructor].
    + intros f x. cbn [In]. rewrite US.
      assert (PK : Permutation (map fst (all_maps (folders ++ [(m_folder m, fo)]))) ((m_folder m, m_name m) :: map fst (all_maps folders)))
        by (apply (Permutation_map fst) in PM; exact PM).
      split.
      * intros I. eapply Permutation_in; [apply Permutation_sym, PK|]. cbn [In]. intuition.
      * intros I. eapply Permutation_in in I; [|exact PK]. cbn [In] in I. intuition.
    + intros f fo0 I. apply in_app_iff in I. destruct I as [I|[E|[]]]; [apply (GD f), I|]. injection E as <- <-.
      split; [reflexivity|]. split; [|discriminate]. cbn [fo_hidden fo].
      rewrite orb_true_iff, existsb_override, eqb_true. reflexivity.
Qed.

Lemma first_colour_spec c d col : first_colour c (md_rules d) = Some col <-> initial_colour c d col.
Proof.
  unfold first_colour, initial_colour. generalize (md_rules d) as rules.
  induction rules as [|r rules IH]; cbn [find_map].
  - split; [discriminate|]. intros [pre [? [? [E _]]]]. destruct pre; discriminate.
  - destruct (match r with RColour s => lookup c s | _ => None end) as [x|] eqn:E.
    + destruct r; try discriminate. split.
      * intros X; injection X as <-. exists [], s, rules. split; [reflexivity|]. split; [exact E|]. intros s' [].
      * intros [pre [s' [post [EQ [L N]]]]]. destruct pre as [|y pre].
        -- cbn in EQ. congruence.
        -- injection EQ as <- _. rewrite (N s) in E by (left; reflexivity). discriminate.
    + rewrite IH. split.
      * intros [pre [s' [post [-> [L N]]]]]. exists (r :: pre), s', post. split; [reflexivity|]. split; [exact L|].
        intros s2 [->|I]; [exact E | apply N, I].
      * intros [pre [s' [post [EQ [L N]]]]]. destruct pre as [|y pre].
        -- cbn in EQ. injection EQ as -> <-. congruence.
        -- injection EQ as <- ->. exists pre, s', post. split; [reflexivity|]. split; [exact L|]. intros s2 I. apply N. right. exact I.
Qed.

Lemma from_topsky_gen c ov maps : forall folders used, filed (st_auto (sets_ c)) ov folders used ->
  exists folders' ms ns,
    fold_left (fun acc d =>
      match acc, first_colour c (md_rules d) with
      | Some folders, Some col =>
        match build c col d with
        | Some m => file_map (st_auto (sets_ c)) ov folders m
        | None => None
        end
      | _, None => acc
      | None, _ => None
      end) maps (Some folders) = Some folders' /\
    converted c maps ms /\ filing used ms ns /\
    Permutation (all_maps folders') (named_maps ms ns ++ all_maps folders) /\
    exists used', filed (st_auto (sets_ c)) ov folders' used'.
Proof.
  induction maps as [|d maps IH]; intros folders used F; cbn [fold_left].
  - exists folders, [], []. split; [reflexivity|]. split; [constructor|]. split; [constructor|]. cbn. eauto.
  - destruct (first_colour c (md_rules d)) as [col|] eqn:FC.
    + destruct (build_spec c col d) as [m [B _]]. rewrite B.
      destruct (file_map_spec _ _ _ _ m F) as [f1 [n [E1 [FA [F1 P1]]]]]. rewrite E1.
      destruct (IH _ _ F1) as [f2 [ms [ns [E2 [C2 [G2 [P2 U2]]]]]]].
      exists f2, (m :: ms), (n :: ns). split; [exact E2|].
      split; [apply (conv_take c d maps m ms col); [apply first_colour_spec, FC | exact B | exact C2]|].
      split; [constructor; assumption|]. split; [|exact U2].
      etransitivity; [exact P2|]. rewrite P1. cbn [named_maps app]. rewrite <- Permutation_middle. reflexivity.
    + destruct (IH _ _ F) as [f2 [ms [ns [E2 [C2 R]]]]]. exists f2, ms, ns. split; [exact E2|].
      split; [|exact R]. apply conv_skip; [|exact C2]. intros col I. apply first_colour_spec in I. congruence.
Qed.

Lemma from_topsky_spec c ov maps : exists folders ms ns, from_topsky c ov maps = Some folders /\
  converted c maps ms /\ filing [] ms ns /\
  Permutation (all_maps folders) (named_maps ms ns) /\ NoDup (map fst (all_maps folders)) /\
  NoDup (keys folders) /\
  forall f fo, get f folders = Some fo ->
    fo_name fo = f /\ (fo_hidden fo = true <-> f = st_auto (sets_ c) \/ In (f, None) ov) /\ fo_maps fo <> [].
Proof.
  destruct (from_topsky_gen c ov maps [] []) as [folders [ms [ns [E [C [G [P [used [KD NN US GD]]]]]]]]].
  - constructor; try (intros ? ? []). + constructor. + intros f n. reflexivity.
  - exists folders, ms, ns. split; [exact E|]. split; [exact C|]. split; [exact G|]. rewrite app_nil_r in P. split; [exact P|].
    split; [apply all_maps_NoDup; assumption|]. split; [exact KD|]. intros f fo I. apply GD, get_In, I.
Qed.
