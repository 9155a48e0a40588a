(** Proofs about [Sectors::from_ese] (C17). *)
From Coq Require Import ZifyBool ZifyN ZifyNat.
From Verif Require Import Base Float Sectors SpecSectors SectorsProofs.

Section FromEse.
  Context (order : text -> list coord -> list coord) (ccw : list point -> list point)
          (SO : forall id, set_order (order id)).

  Definition ring_at (e : text * ese_sector) := polygon_from_ese (snd e) (order (fst e)).
  Definition validb (e : text * ese_sector) : bool :=
    match ring_at e with RRing _ => true | _ => false end.
  Definition vol_of (e : text * ese_sector) : text * volume :=
    (fst e, mkVolume (fst e) (es_bottom (snd e)) (es_top (snd e))
       (ccw (map dequantize (match ring_at e with RRing r => r | _ => [] end)))).
  Definition gkey (e : text * ese_sector) := (es_owner (snd e), es_runways (snd e)).

  Lemma validb_spec e : validb e = true <-> closed_connected_border (border_segments (snd e)).
  Proof.
    unfold validb, ring_at. pose proof (polygon_spec (snd e) (order (fst e)) (SO _)) as S.
    destruct (polygon_from_ese _ _); [split; [discriminate | tauto] | tauto | destruct S].
  Qed.

  Lemma group_spec entries :
    group_sectors entries order ccw =
    Some (mpush_all (map (fun e => (gkey e, e)) (filter validb entries)) [],
          put_all (map vol_of (filter validb entries)) []).
  Proof.
    induction entries as [|e entries IH] using rev_ind; [reflexivity|].
    unfold group_sectors in *. rewrite fold_left_app, IH. cbn [fold_left volume_step].
    rewrite filter_app, !map_app. cbn [filter].
    unfold mpush_all, put_all. rewrite !fold_left_app.
    destruct e as [id s]. unfold validb, vol_of, ring_at, gkey. cbn [fst snd].
    pose proof (polygon_spec s (order id) (SO _)) as S.
    destruct (polygon_from_ese s (order id)) as [|r|] eqn:R; cbn [map fold_left]; [reflexivity| |destruct S].
    cbn [fst snd]. rewrite ?R. reflexivity.
  Qed.

  Lemma mpush_all_nonempty {K V} `{EqDec K} (l : list (K * V)) m :
    (forall k vs, In (k, vs) m -> vs <> []) -> forall k vs, In (k, vs) (mpush_all l m) -> vs <> [].
  Proof.
    revert m; induction l as [|[k0 v0] l IH]; cbn [mpush_all fold_left]; intros m Hm; [exact Hm|].
    apply IH. intros k vs I. cbn [fst snd] in I. unfold mpush in I.
    assert (NE : mget_vec k0 m ++ [v0] <> []) by (destruct (mget_vec k0 m); discriminate).
    revert NE I. generalize (mget_vec k0 m ++ [v0]). intros w NE I.
    induction m as [|[k1 v1] m IHm]; cbn [put] in I.
    - destruct I as [E|[]]. injection E as <- <-. exact NE.
    - destruct (eq_dec k0 k1).
      + destruct I as [E|I]; [injection E as <- <-; exact NE | apply (Hm k vs); right; exact I].
      + destruct I as [E|I]; [injection E as <- <-; apply (Hm k1 v1); left; reflexivity|].
        apply IHm; [intros; eapply Hm; right; eassumption | exact I].
  Qed.

  Definition group := ((list text * list runway_id) * list (text * ese_sector))%type.
  Definition first_id (g : group) : text := match snd g with e :: _ => fst e | [] => [] end.

  Lemma groups_spec (gs : list group) : forall acc : list (text * sector),
    (forall k l, In (k, l) gs -> l <> []) ->
    NoDup (keys acc ++ map first_id gs) ->
    exists ss, sectors_of_groups gs acc = Some (acc ++ map (fun s => (sc_id s, s)) ss) /\
      Forall2 (fun g s => sector_of_group g = Some s) gs ss /\
      map sc_id ss = map first_id gs.
  Proof.
    induction gs as [|[[prio rw] l] gs IH]; intros acc NE ND; cbn [sectors_of_groups].
    - exists []. rewrite app_nil_r. repeat split; constructor.
    - destruct l as [|[id s0] l]; [exfalso; eapply NE; [left; reflexivity | reflexivity]|].
      cbn [sector_of_group map fst]. cbn [map first_id snd fst] in ND. cbn [sc_id].
      match goal with |- context [put id ?x acc] => set (sc := x) end.
      assert (PA : put id sc acc = acc ++ [(id, sc)]).
      { assert (NI : ~ In id (keys acc)).
        { intros I. apply NoDup_remove_2 in ND. apply ND. rewrite in_app_iff. left; exact I. }
        clear - NI. induction acc as [|[k v] acc IH]; [reflexivity|]. cbn [put app keys map fst In] in *.
        destruct (eq_dec id k); [exfalso; apply NI; left; congruence|]. f_equal. apply IH. tauto. }
      rewrite PA. destruct (IH (acc ++ [(id, sc)])) as [ss [E1 [E2 E3]]].
      + intros; eapply NE; right; eassumption.
      + unfold keys in *. rewrite map_app, <- app_assoc. exact ND.
      + exists (sc :: ss). rewrite E1, <- app_assoc. split; [reflexivity|]. split.
        * constructor; [reflexivity | exact E2].
        * cbn [map first_id snd fst]. rewrite E3. reflexivity.
  Qed.

  Lemma filter_incl_keys (f : text * ese_sector -> bool) entries : NoDup (keys entries) -> NoDup (keys (filter f entries)).
  Proof.
    unfold keys. induction entries as [|e entries IH]; intros ND; [constructor|].
    inversion ND as [|? ? N ND']; subst. cbn [filter]. destruct (f e); [|apply IH, ND'].
    cbn [map]. constructor; [|apply IH, ND']. intros I. apply N.
    apply in_map_iff in I. destruct I as [x [E I]]. apply filter_In in I. apply in_map_iff. exists x; tauto.
  Qed.

  Lemma NoDup_keys_inj {X} (l : list (text * X)) k v v' : NoDup (keys l) -> In (k, v) l -> In (k, v') l -> v = v'.
  Proof.
    intros ND I J. apply In_get in I; [|exact ND]. apply In_get in J; [|exact ND]. congruence.
  Qed.

  Lemma from_ese_spec entries gorder :
    NoDup (keys entries) -> (forall l, Permutation (gorder l) l) ->
    exists vols secs, sectors_from_ese entries order ccw gorder = Some (vols, secs) /\
      sectors_ok entries ccw vols secs.
  Proof.
    intros ND GO. unfold sectors_from_ese. rewrite group_spec.
    set (ve := filter validb entries).
    assert (VE : forall id s, In (id, s) ve <-> valid_entry entries id s).
    { intros id s. unfold ve, valid_entry. rewrite filter_In, validb_spec. reflexivity. }
    set (groups := mpush_all (map (fun e => (gkey e, e)) ve) []).
    assert (NDv : NoDup (keys ve)) by (apply filter_incl_keys, ND).
    assert (NDg : NoDup (keys groups)) by (apply NoDup_mpush_all; constructor).
    assert (GR : forall k, mget_vec k groups = filter (fun e => eqb k (gkey e)) ve).
    { intros k. unfold groups. rewrite mget_vec_push_all. unfold values_of.
      change (mget_vec k []) with (@nil (text * ese_sector)). cbn [app].
      clear. induction ve as [|e l IH]; [reflexivity|]. cbn [map filter fst].
      destruct (eqb k (gkey e)); cbn [map snd]; [f_equal|]; exact IH. }
    assert (GI : forall k l, In (k, l) (gorder groups) <-> In (k, l) groups).
    { intros k l. split; apply Permutation_in; [|symmetry]; apply GO. }
    assert (GL : forall k l, In (k, l) (gorder groups) -> l = filter (fun e => eqb k (gkey e)) ve).
    { intros k l I. apply GI in I. rewrite <- GR. unfold mget_vec. rewrite (In_get _ _ _ NDg I). reflexivity. }
    assert (GN : forall k l, In (k, l) (gorder groups) -> l <> []).
    { intros k l I. apply GI in I. revert I. apply mpush_all_nonempty. intros ? ? []. }
    assert (NDg' : NoDup (keys (gorder groups))).
    { unfold keys. eapply Permutation_NoDup; [|exact NDg]. apply Permutation_map. symmetry; apply GO. }
    assert (IK : forall k l id s, In (k, l) (gorder groups) -> In (id, s) l <->
        valid_entry entries id s /\ gkey (id, s) = k).
    { intros k l id s I. rewrite (GL k l I), filter_In, VE, eqb_true. intuition congruence. }
    assert (NDF : NoDup (map first_id (gorder groups))).
    { (* the first ids of the groups are distinct *)
      assert (G : forall gs, NoDup (keys gs) -> (forall g, In g gs -> In g (gorder groups)) ->
        NoDup (map first_id gs)).
      2:{ apply G; [exact NDg' | auto]. }
      induction gs as [|[k l] gs IH]; intros NDk Sub; [constructor|].
      inversion NDk as [|? ? Nk NDk']; subst. cbn [map]. constructor.
      - intros I. apply in_map_iff in I. destruct I as [[k' l'] [E I]]. unfold first_id in E; cbn [snd] in E.
        pose proof (Sub (k, l) (or_introl eq_refl)) as I1. pose proof (Sub (k', l') (or_intror I)) as I2.
        destruct l as [|[id s] l]; [exact (GN _ _ I1 eq_refl)|].
        destruct l' as [|[id' s'] l']; [exact (GN _ _ I2 eq_refl)|]. cbn [fst] in E. subst id'.
        assert (A1 : valid_entry entries id s /\ gkey (id, s) = k) by (apply (IK _ _ id s I1); left; reflexivity).
        assert (A2 : valid_entry entries id s' /\ gkey (id, s') = k') by (apply (IK _ _ id s' I2); left; reflexivity).
        destruct A1 as [[A1 _] A1'], A2 as [[A2 _] A2'].
        assert (s = s') as <- by exact (NoDup_keys_inj _ _ _ _ ND A1 A2).
        apply Nk. apply in_map_iff. exists (k', (id, s) :: l'). split; [cbn [fst]; congruence | exact I].
      - apply IH; [exact NDk' | intros; apply Sub; right; assumption]. }
    destruct (groups_spec (gorder groups) [] GN NDF) as [ss [E1 [E2 E3]]].
    rewrite E1. cbn [app]. do 2 eexists. split; [reflexivity|].
    assert (SEC : forall k sc, In (k, sc) (map (fun s => (sc_id s, s)) ss) ->
       k = sc_id sc /\ exists g, In g (gorder groups) /\ sector_of_group g = Some sc).
    { intros k sc I. apply in_map_iff in I. destruct I as [s [E I]]. injection E as <- ->. split; [reflexivity|].
      clear - E2 I. induction E2 as [|g s' gs ss H F IH]; [destruct I|].
      destruct I as [<-|I]; [exists g; split; [left; reflexivity | exact H]|].
      destruct (IH I) as [g' [A B]]. exists g'; split; [right|]; assumption. }
    assert (SEC2 : forall g, In g (gorder groups) -> exists sc, sector_of_group g = Some sc /\
       In (sc_id sc, sc) (map (fun s => (sc_id s, s)) ss)).
    { intros g I. clear - E2 I. induction E2 as [|g' s' gs ss H F IH]; [destruct I|].
      destruct I as [<-|I]; [exists s'; split; [exact H | left; reflexivity]|].
      destruct (IH I) as [sc [A B]]. exists sc; split; [exact A | right; exact B]. }
    assert (SG : forall k l sc, In (k, l) (gorder groups) -> sector_of_group (k, l) = Some sc ->
       sc_volumes sc = map fst l /\ sc_priority sc = fst k /\ sc_filter sc = [snd k] /\ In (sc_id sc) (map fst l) /\
       sc_dep sc = nodup eq_dec (flat_map (fun x => es_dep (snd x)) l) /\ sc_arr sc = nodup eq_dec (flat_map (fun x => es_arr (snd x)) l)).
    { intros [pr rw] l sc I S. destruct l as [|e l]; [exfalso; exact (GN _ _ I eq_refl)|].
      cbn [sector_of_group map] in S. injection S as <-. cbn. repeat split. left; reflexivity. }
    assert (MEM : forall k l id, In (k, l) (gorder groups) -> In id (map fst l) <->
              exists s, valid_entry entries id s /\ gkey (id, s) = k).
    { intros k l id I. rewrite in_map_iff. split.
      - intros [[id' s] [E J]]. cbn [fst] in E. subst id'. exists s. apply (IK k l id s I), J.
      - intros [s J]. exists (id, s). split; [reflexivity | apply (IK k l id s I), J]. }
    constructor.
    - intros id. rewrite get_put_all. cbn [get].
      assert (NDvv : NoDup (keys (map vol_of ve))).
      { unfold keys in *. rewrite map_map. exact NDv. }
      rewrite <- (get_perm id (map vol_of ve) (rev (map vol_of ve)) NDvv (Permutation_rev _)).
      destruct (get id (map vol_of ve)) as [v|] eqn:G.
      + apply get_In in G. apply in_map_iff in G. destruct G as [[id' s] [E I]].
        unfold vol_of in E. injection E as E1' E2'. cbn [fst snd] in *. subst id'.
        pose proof (polygon_spec s (order id) (SO _)) as S.
        apply filter_In in I. destruct I as [I V]. unfold validb, ring_at in *. cbn [fst snd] in *.
        destruct (polygon_from_ese s (order id)) as [|r|]; try discriminate V.
        exists s, r. unfold valid_entry. split; [tauto|]. split; [congruence | tauto].
      + intros s Vs. apply VE in Vs. apply get_None in G. apply G.
        unfold keys. rewrite map_map. apply in_map_iff. exists (id, s). split; [reflexivity | exact Vs].
    - split; [apply NoDup_put_all; constructor|].
      unfold keys. rewrite map_map. cbn [fst]. change (map (fun x => sc_id x) ss) with (map sc_id ss).
      rewrite E3. exact NDF.
    - intros k sc I. destruct (SEC k sc I) as [-> [[gk l] [J S]]]. split; [reflexivity|].
      destruct (SG _ _ _ J S) as [-> [_ [_ [A _]]]]. exact A.
    - intros k sc I. destruct (SEC k sc I) as [-> [[gk l] [J S]]].
      destruct (SG _ _ _ J S) as [-> [-> [-> _]]]. split.
      + rewrite (GL _ _ J). apply filter_incl_keys, NDv.
      + exists (snd gk). split; [reflexivity|]. intros id. rewrite (MEM gk l id J).
        split; intros [s [A B]]; exists s; (split; [exact A|]); destruct gk; unfold gkey in *; cbn [fst snd] in *.
        * injection B; auto.
        * destruct B; congruence.
    - intros id s V. set (k := gkey (id, s)).
      assert (I : exists l, In (k, l) (gorder groups)).
      { exists (mget_vec k groups). apply GI. unfold mget_vec. destruct (get k groups) as [l|] eqn:G; [apply get_In, G|].
        exfalso. assert (In (id, s) (mget_vec k groups)).
        { rewrite GR, filter_In, VE, eqb_true. split; [exact V | reflexivity]. }
        unfold mget_vec in H. rewrite G in H. destruct H. }
      destruct I as [l I]. destruct (SEC2 _ I) as [sc [S J]]. exists (sc_id sc), sc. split; [exact J|].
      destruct (SG _ _ _ I S) as [-> _]. apply (MEM k l id I). exists s. auto.
    - intros k sc k' sc' id I I' J J'.
      destruct (SEC k sc I) as [-> [[gk l] [A S]]]. destruct (SEC k' sc' I') as [-> [[gk' l'] [A' S']]].
      destruct (SG _ _ _ A S) as [V1 _]. destruct (SG _ _ _ A' S') as [V2 _]. rewrite V1 in J. rewrite V2 in J'.
      apply (MEM gk l id A) in J. apply (MEM gk' l' id A') in J'.
      destruct J as [s [[J _] K]], J' as [s' [[J' _] K']].
      assert (s = s') as <- by exact (NoDup_keys_inj _ _ _ _ ND J J').
      assert (gk = gk') as <- by congruence.
      assert (l = l') as <- by (rewrite (GL _ _ A), (GL _ _ A'); reflexivity). congruence.
    - intros k sc a I. destruct (SEC k sc I) as [-> [[gk l] [A S]]].
      destruct (SG _ _ _ A S) as [V1 [_ [_ [_ [D1 D2]]]]]. rewrite V1, D1, D2, !nodup_In.
      assert (EX : forall id s, In id (map fst l) -> In (id, s) entries -> In (id, s) l).
      { intros id s J K. apply (MEM gk l id A) in J. destruct J as [s' [J1 J2]].
        assert (s = s') as -> by exact (NoDup_keys_inj _ _ _ _ ND K (proj1 J1)).
        apply (IK gk l id s' A). auto. }
      assert (EX2 : forall id s, In (id, s) l -> In id (map fst l) /\ In (id, s) entries).
      { intros id s J. split; [apply in_map_iff; exists (id, s); auto|].
        apply (IK gk l id s A) in J. destruct J as [[J _] _]. exact J. }
      split; rewrite in_flat_map; split.
      + intros [[id s] [J K]]. destruct (EX2 id s J). exists id, s. auto.
      + intros [id [s [J [K L]]]]. exists (id, s). auto.
      + intros [[id s] [J K]]. destruct (EX2 id s J). exists id, s. auto.
      + intros [id [s [J [K L]]]]. exists (id, s). auto.
    - intros k sc I. destruct (SEC k sc I) as [-> [[gk l] [A S]]].
      destruct (SG _ _ _ A S) as [_ [_ [_ [_ [-> ->]]]]]. split; apply NoDup_nodup.
  Qed.
End FromEse.

(** [find_id_by_volume] under any iteration order of the sector map *)
Lemma find_id_spec entries ccw vols secs secs' id :
  sectors_ok entries ccw vols secs -> Permutation secs' secs ->
  match find_id_by_volume secs' id with
  | Some k => exists sc, In (k, sc) secs /\ In id (sc_volumes sc)
  | None => forall s, ~ valid_entry entries id s
  end.
Proof.
  intros OK P. unfold find_id_by_volume.
  destruct (find _ secs') as [[k sc]|] eqn:F.
  - apply find_some in F. destruct F as [I E]. exists sc. split; [eapply Permutation_in; eassumption|].
    apply existsb_exists in E. destruct E as [x [J E]]. rewrite eqb_true in E. subst x. exact J.
  - intros s V. destruct (so_every _ _ _ _ OK id s V) as [k [sc [I J]]].
    apply (Permutation_in _ (Permutation_sym P)) in I. apply (find_none _ _ F) in I. cbn in I.
    assert (existsb (eqb id) (sc_volumes sc) = true) by (apply existsb_exists; exists id; split; [exact J | apply eqb_refl]).
    congruence.
Qed.

Lemma same_sector_iff : forall entries order ccw gorder vols secs id s id' s',
  NoDup (keys entries) -> (forall i, set_order (order i)) -> (forall l, Permutation (gorder l) l) ->
  sectors_from_ese entries order ccw gorder = Some (vols, secs) ->
  valid_entry entries id s -> valid_entry entries id' s' ->
  ((exists k sc, In (k, sc) secs /\ In id (sc_volumes sc) /\ In id' (sc_volumes sc)) <->
   es_owner s = es_owner s' /\ es_runways s = es_runways s').
Proof.
  intros entries order ccw gorder vols secs id s id' s' ND SO GO E V V'.
  destruct (from_ese_spec order ccw SO entries gorder ND GO) as [v [se [E' OK]]].
  rewrite E in E'. injection E' as <- <-.
  assert (U : forall i x y, valid_entry entries i x -> valid_entry entries i y -> x = y).
  { intros i x y [A _] [B _]. exact (NoDup_keys_inj _ _ _ _ ND A B). }
  split.
  - intros [k [sc [I [J J']]]]. destruct (so_members _ _ _ _ OK k sc I) as [_ [rw [_ M]]].
    apply M in J. apply M in J'. destruct J as [x [Vx Jx]], J' as [x' [Vx' Jx']].
    rewrite (U _ _ _ V Vx), (U _ _ _ V' Vx'). intuition congruence.
  - intros [EO ER]. destruct (so_every _ _ _ _ OK id s V) as [k [sc [I J]]].
    exists k, sc. split; [exact I|]. split; [exact J|].
    destruct (so_members _ _ _ _ OK k sc I) as [_ [rw [_ M]]].
    apply M in J. destruct J as [x [Vx Jx]]. rewrite <- (U _ _ _ V Vx) in Jx.
    apply M. exists s'. split; [exact V'|]. intuition congruence.
Qed.
