(** Proofs about the airway graph observed through [SpecAirways] (C11-C14). *)
From Coq Require Import ZifyBool ZifyN ZifyNat.
From Verif Require Import Base Float Airways SpecAirways AirwaysProofs.

Section Built.
  Context (h : list segment) (g : graph) (Eg : insert_all empty_graph h = Some g).

  Lemma built_rep : Rep g (raw_points h) (points h) (airways h) (all_events h).
  Proof. destruct (insert_all_rep h) as [g' [E' HR]]. rewrite Eg in E'; injection E' as <-. exact HR. Qed.
  Let HR := built_rep.

  Lemma point_id i : point_of_id g i = nth_error (points h) i.
  Proof. apply (rp_pts _ _ _ _ _ HR). Qed.

  Lemma points_nodup : NoDup (points h).
  Proof. apply dedup_NoDup. Qed.

  Lemma ids_inj i j p : nth_error (points h) i = Some p -> nth_error (points h) j = Some p -> i = j.
  Proof.
    intros A B. apply (proj1 (NoDup_nth_error _) points_nodup); [apply nth_error_Some; congruence | congruence].
  Qed.

  Lemma awy_id n k : get n (airway_id_by_name g) = Some k <-> nth_error (airways h) k = Some n.
  Proof. apply (rp_awy _ _ _ _ _ HR). Qed.

  Lemma edges_spec i f p k a : nth_error (fixes g) i = Some f -> nth_error (points h) i = Some p ->
    nth_error (airways h) k = Some a ->
    Forall2 (fun e x => nth_error (points h) (e_to e) = Some x /\ e_valid e = may_fly h a p x
                        /\ least (levels h a p x) (e_min e))
            (edges_at f k) (neighbours h a p).
  Proof.
    intros Hf Hp Ha. rewrite <- point_id in Hp. rewrite <- (rp_awys _ _ _ _ _ HR) in Ha.
    eapply Forall2_impl; [|apply (graph_edges_spec h g Eg i f p k a Hf Hp Ha)].
    intros e x Q. rewrite <- point_id. exact Q.
  Qed.

  Lemma edges_some i f k es : nth_error (fixes g) i = Some f -> get k (g_edges f) = Some es ->
    es <> [] /\ k < List.length (airways h) /\ edges_at f k = es.
  Proof.
    intros Hf He. destruct (rp_some _ _ _ _ _ HR i f k es Hf He) as [A B].
    repeat split; try assumption. unfold edges_at. rewrite He. reflexivity.
  Qed.

  Lemma neighbours_sym a p q : In q (neighbours h a p) <-> In p (neighbours h a q).
  Proof.
    unfold neighbours. rewrite !dedup_In, !in_flat_map. unfold linked.
    split; intros [s [I J]]; exists s; (split; [exact I|]);
      (destruct (eqb (s_awy s) a); [|destruct J]); rewrite in_app_iff in *; unfold eqb in *.
    - destruct (eq_dec (seg_from s) p), (eq_dec (seg_to s) p); cbn [In] in *;
      destruct (eq_dec (seg_from s) q), (eq_dec (seg_to s) q); cbn [In] in *; intuition congruence.
    - destruct (eq_dec (seg_from s) p), (eq_dec (seg_to s) p); cbn [In] in *;
      destruct (eq_dec (seg_from s) q), (eq_dec (seg_to s) q); cbn [In] in *; intuition congruence.
  Qed.

  Lemma neighbours_In a p q : In q (neighbours h a p) <->
    exists s, In s h /\ s_awy s = a /\ ((seg_from s = p /\ seg_to s = q) \/ (seg_from s = q /\ seg_to s = p)).
  Proof.
    unfold neighbours. rewrite dedup_In, in_flat_map. unfold linked. split.
    - intros [s [I J]]. exists s. split; [exact I|]. unfold eqb in J.
      destruct (eq_dec (s_awy s) a); [|destruct J]. split; [assumption|]. rewrite in_app_iff in J.
      destruct (eq_dec (seg_from s) p), (eq_dec (seg_to s) p); cbn [In] in J; intuition congruence.
    - intros [s [I [Ea J]]]. exists s. split; [exact I|]. rewrite Ea, eqb_refl, in_app_iff.
      destruct J as [[-> ->]|[-> ->]]; rewrite eqb_refl; [left|right]; left; reflexivity.
  Qed.

  Lemma Forall2_nth {X Y} (Q : X -> Y -> Prop) l l' : Forall2 Q l l' ->
    forall x, In x l -> exists y, In y l' /\ Q x y.
  Proof.
    intros F; induction F as [|a b l l' H F IH]; intros x I; [destruct I|].
    destruct I as [<-|I]; [exists b; split; [left; reflexivity | exact H]|].
    destruct (IH x I) as [y [J K]]. exists y; split; [right|]; assumption.
  Qed.
  Lemma Forall2_nth' {X Y} (Q : X -> Y -> Prop) l l' : Forall2 Q l l' ->
    forall y, In y l' -> exists x, In x l /\ Q x y.
  Proof.
    intros F; induction F as [|a b l l' H F IH]; intros x I; [destruct I|].
    destruct I as [<-|I]; [exists a; split; [left; reflexivity | exact H]|].
    destruct (IH x I) as [y [J K]]. exists y; split; [right|]; assumption.
  Qed.

  Lemma neighbours_awy a p q : In q (neighbours h a p) -> exists k, nth_error (airways h) k = Some a.
  Proof.
    intros I. apply neighbours_In in I. destruct I as [s [I [<- _]]].
    apply In_nth_error. unfold airways. apply dedup_In, in_map, I.
  Qed.

  Lemma neighbours_point a p q : In q (neighbours h a p) -> In p (points h) /\ In q (points h).
  Proof.
    intros I. apply neighbours_In in I. destruct I as [s [I [_ J]]]. unfold points.
    rewrite !dedup_In, !in_flat_map.
    destruct J as [[<- <-]|[<- <-]]; split; exists s; (split; [exact I|]); cbn; tauto.
  Qed.

  Lemma stored_spec a p q v m :
    stored g a p q v m <->
    In q (neighbours h a p) /\ v = may_fly h a p q /\ least (levels h a p q) m.
  Proof.
    split.
    - intros [i [k [f [es [e [Ha [Hp [Hf [He [Ie [Hq [<- <-]]]]]]]]]]]].
      apply awy_id in Ha. rewrite point_id in Hp, Hq.
      destruct (edges_some _ _ _ _ Hf He) as [_ [_ <-]].
      destruct (Forall2_nth _ _ _ (edges_spec i f p k a Hf Hp Ha) e Ie) as [x [Ix [E1 E2]]].
      assert (x = q) as -> by congruence. tauto.
    - intros [I [-> L]].
      destruct (neighbours_awy _ _ _ I) as [k Ek]. destruct (neighbours_point _ _ _ I) as [Ip Iq].
      apply In_nth_error in Ip. destruct Ip as [i Ei]. destruct (Rep_fix HR _ _ Ei) as [f Ef].
      pose proof (edges_spec i f p k a Ef Ei Ek) as F.
      destruct (Forall2_nth' _ _ _ F q I) as [e [Ie [E1 [E2 E3]]]].
      exists i, k, f, (edges_at f k), e.
      rewrite awy_id, !point_id. repeat split; try assumption.
      + unfold edges_at in *. destruct (get k (g_edges f)); [reflexivity|]. destruct Ie.
      + assert (U : forall l a b, least l a -> least l b -> a = b).
        { intros l [x|] [y|]; cbn; try tauto.
          - intros [A B] [C D]. f_equal. specialize (B _ C); specialize (D _ A). lia.
          - intros [A _] ->. destruct A.
          - intros -> [A _]. destruct A. }
        exact (U _ _ _ E3 L).
  Qed.

  Lemma graph_well_formed : well_formed g.
  Proof.
    constructor.
    - rewrite (rp_nlen _ _ _ _ _ HR), (rp_len _ _ _ _ _ HR). reflexivity.
    - intros n i. rewrite (rp_names _ _ _ _ _ HR), idxs_In. split.
      + intros [qq E]. destruct (Rep_fix HR _ _ E) as [f Ef].
        destruct (Rep_point HR _ _ Ef) as [p [E1 [E2 _]]]. rewrite E in E1. injection E1 as <-. exact E2.
      + intros E. pose proof (point_id i) as Pt. unfold point_of_id in Pt. rewrite E in Pt.
        destruct (nth_error (fixes g) i) as [f|] eqn:Ef; [eexists; symmetry; exact Pt|].
        exfalso. apply nth_error_None in Ef. rewrite (rp_len _ _ _ _ _ HR), <- (rp_nlen _ _ _ _ _ HR) in Ef.
        apply nth_error_None in Ef. congruence.
    - intros i j p. rewrite !point_id. apply ids_inj.
    - intros n k. rewrite (rp_awys _ _ _ _ _ HR). apply awy_id.
    - intros i f k es Hf He. destruct (edges_some _ _ _ _ Hf He) as [A [B C]].
      rewrite (rp_awys _ _ _ _ _ HR). split; [exact B|]. split; [exact A|].
      destruct (nth_error (airways h) k) as [a|] eqn:Ek; [|apply nth_error_None in Ek; lia].
      destruct (Rep_point HR _ _ Hf) as [p [Ep _]].
      pose proof (edges_spec i f p k a Hf Ep Ek) as F. rewrite C in F. split.
      + apply (NoDup_map_inv (nth_error (points h))). rewrite map_map.
        assert (E : map (fun e => nth_error (points h) (e_to e)) es = map Some (neighbours h a p)).
        { clear - F. induction F as [|e x es xs [H _] F IH]; [reflexivity|]. cbn. rewrite H, IH. reflexivity. }
        rewrite E. apply FinFun.Injective_map_NoDup; [intros x y; congruence | apply dedup_NoDup].
      + intros e Ie. destruct (Forall2_nth _ _ _ F e Ie) as [x [Ix [E1 _]]].
        apply neighbours_sym in Ix. destruct (Rep_fix HR _ _ E1) as [f' Ef'].
        pose proof (edges_spec _ f' x k a Ef' E1 Ek) as F'.
        destruct (Forall2_nth' _ _ _ F' p Ix) as [e' [Ie' [E1' _]]].
        exists f', (edges_at f' k), e'. split; [exact Ef'|].
        split; [|split; [exact Ie'|]].
        * unfold edges_at in *. destruct (get k (g_edges f')); [reflexivity|]. destruct Ie'.
        * eapply ids_inj; eassumption.
  Qed.

  Lemma positions i f p : nth_error (fixes g) i = Some f -> nth_error (points h) i = Some p ->
    is_position h p (g_pos f).
  Proof.
    intros Hf Hp. destruct (rp_pos _ _ _ _ _ HR i f p Hf Hp) as [l1 [l2 [A [B C]]]].
    exists l1, l2. repeat split; try assumption. intros n d I. apply (C (n, d) I).
  Qed.

  (** * Lookups *)
  Lemma find_id_find pr pp n :
    (forall i f p, nth_error (fixes g) i = Some f -> nth_error (points h) i = Some p -> pr f = pp p) ->
    exists r, find_named g pr n = Some r /\
      match r with
      | Some i => exists p, nth_error (points h) i = Some p /\
                    find (fun p => eqb (fst p) n && pp p) (points h) = Some p
      | None => find (fun p => eqb (fst p) n && pp p) (points h) = None
      end.
  Proof.
    intros PP. rewrite find_named_vec, (rp_names _ _ _ _ _ HR). unfold idxs.
    assert (G : forall P2 P1, points h = P1 ++ P2 ->
      exists r, find_id g pr (idxs_from (List.length P1) n P2) = Some r /\
      match r with
      | Some i => exists p, nth_error (points h) i = Some p /\
                    find (fun p => eqb (fst p) n && pp p) P2 = Some p
      | None => find (fun p => eqb (fst p) n && pp p) P2 = None
      end).
    2:{ apply (G (points h) [] eq_refl). }
    induction P2 as [|p P2 IH]; intros P1 EP; cbn [idxs_from find app find_id].
    - exists None; auto.
    - assert (Ep : nth_error (points h) (List.length P1) = Some p).
      { rewrite EP, nth_error_app2, Nat.sub_diag by lia. reflexivity. }
      destruct (Rep_fix HR _ _ Ep) as [f Ef].
      destruct (IH (P1 ++ [p])) as [r [E1 E2]]; [rewrite EP, <- app_assoc; reflexivity|].
      rewrite app_length in E1. cbn [List.length] in E1. rewrite Nat.add_1_r in E1.
      destruct (eqb (fst p) n); cbn [andb app find_id].
      + unfold fix_at. rewrite Ef. rewrite (PP _ _ _ Ef Ep). destruct (pp p).
        * exists (Some (List.length P1)). split; [reflexivity|]. exists p; auto.
        * exists r; auto.
      + exists r; auto.
  Qed.

  Lemma on_airway_on k a i f p : nth_error (airways h) k = Some a -> nth_error (fixes g) i = Some f ->
    nth_error (points h) i = Some p -> on_airway k f = on h a p.
  Proof.
    intros Hk Hf Hp. pose proof (edges_spec i f p k a Hf Hp Hk) as F.
    unfold on_airway, on. unfold edges_at in F. destruct (get k (g_edges f)) as [es|] eqn:He.
    - destruct (edges_some _ _ _ _ Hf He) as [A _]. inversion F; subst; [congruence | reflexivity].
    - inversion F. reflexivity.
  Qed.

  Lemma find_on k a n : nth_error (airways h) k = Some a ->
    exists r, find_named g (on_airway k) n = Some r /\
      match r with
      | Some i => exists p, nth_error (points h) i = Some p /\ first_on h a n = Some p
      | None => first_on h a n = None
      end.
  Proof.
    intros Hk. apply (find_id_find (on_airway k) (on h a) n).
    intros i f p. apply on_airway_on, Hk.
  Qed.

  Lemma find_at n pos :
    exists r, find_named g (fun f => same_pos (g_pos f) pos) n = Some r /\
      match r with
      | Some i => nth_error (points h) i = Some (n, quantize pos)
      | None => ~ @In apoint (n, quantize pos) (points h)
      end.
  Proof.
    destruct (find_id_find (fun f => same_pos (g_pos f) pos) (fun p => eqb (snd p) (quantize pos)) n)
      as [r [E1 E2]].
    { intros i f p Hf Hp. destruct (Rep_point HR _ _ Hf) as [p' [A [_ B]]].
      assert (p' = p) as -> by congruence. unfold same_pos. rewrite B. reflexivity. }
    exists r. split; [exact E1|]. destruct r as [i|].
    - destruct E2 as [p [A B]]. apply find_some in B. destruct B as [_ B].
      apply andb_true_iff in B. rewrite !eqb_true in B. destruct B as [B1 B2].
      rewrite A. f_equal. destruct p as [pn pq]; cbn [fst snd] in *. congruence.
    - intros I. apply (find_none _ _ E2) in I. cbn [fst snd] in I. rewrite !eqb_refl in I. discriminate.
  Qed.

  (** start lookup *)
  Lemma find_start k a n pos : nth_error (airways h) k = Some a ->
    exists r found, find_named g (fun f => same_pos (g_pos f) pos) n = Some found /\
      (match found with
       | Some id => Some (Some id)
       | None => find_named g (on_airway k) n
       end) = Some r /\
      match r with
      | Some i => exists p, nth_error (points h) i = Some p /\ start_point h a n pos = Some p
      | None => start_point h a n pos = None
      end.
  Proof.
    intros Hk. destruct (find_at n pos) as [found [E1 E2]]. unfold start_point.
    destruct found as [i|].
    - exists (Some i), (Some i). split; [exact E1|]. split; [reflexivity|].
      destruct (in_dec eq_dec (n, quantize pos) (points h)) as [_|C]; [eauto|].
      exfalso. apply C. eapply nth_error_In. exact E2.
    - destruct (find_on k a n Hk) as [r [F1 F2]]. exists r, None.
      split; [exact E1|]. split; [exact F1|].
      destruct (in_dec eq_dec (n, quantize pos) (points h)) as [C|_]; [contradiction|].
      exact F2.
  Qed.

  (** * traverse *)
  Definition pt_steps (l : list (nat * bool * option N)) (s : list (apoint * bool * option N)) : Prop :=
    Forall2 (fun x y => nth_error (points h) (fst (fst x)) = Some (fst (fst y)) /\
                        snd (fst x) = snd (fst y) /\ snd x = snd y) l s.

  Definition edge_from (a : text) (p : apoint) (e : edge) (x : apoint) : Prop :=
    nth_error (points h) (e_to e) = Some x /\ In x (neighbours h a p) /\
    e_valid e = may_fly h a p x /\ least (levels h a p x) (e_min e).

  Lemma edge_from_edges i f p k a e es : nth_error (fixes g) i = Some f -> nth_error (points h) i = Some p ->
    nth_error (airways h) k = Some a -> get k (g_edges f) = Some es -> In e es ->
    exists x, edge_from a p e x.
  Proof.
    intros Hf Hp Hk He Ie. pose proof (edges_spec i f p k a Hf Hp Hk) as F.
    destruct (edges_some _ _ _ _ Hf He) as [_ [_ E]]. rewrite E in F.
    destruct (Forall2_nth _ _ _ F e Ie) as [x [Ix [E1 [E2 E3]]]]. exists x. repeat split; assumption.
  Qed.

  Lemma traverse_spec end_ z k a : nth_error (airways h) k = Some a ->
    nth_error (points h) end_ = Some z ->
    forall fuel prev pp po e x,
    nth_error (points h) prev = Some pp ->
    edge_from a pp e x -> po <> Some x ->
    match traverse g end_ k fuel prev e with
    | XPanic => False
    | XNone => True
    | XSome l => exists s, pt_steps l s /\ path h a po pp s /\ List.length l <= fuel /\
         exists s' v m, s = s' ++ [(z, v, m)] /\ forall y, In y s' -> fst (fst y) <> z
    end.
  Proof.
    intros Hk Hz. induction fuel as [|fuel IH]; intros prev pp po e x Hp He Hpo; cbn [traverse]; [exact I|].
    destruct He as [E1 [E2 [E3 E4]]].
    destruct (Nat.eqb_spec (e_to e) end_) as [Q|NE].
    - exists [(x, e_valid e, e_min e)]. rewrite Q in E1. assert (x = z) as -> by congruence.
      repeat split.
      + constructor; [|constructor]. cbn. rewrite Q. auto.
      + constructor; assumption.
      + cbn; lia.
      + exists [], (e_valid e), (e_min e). split; [reflexivity | intros y []].
    - destruct (Rep_fix HR _ _ E1) as [f Ef]. unfold fix_at. rewrite Ef.
      destruct (get k (g_edges f)) as [es|] eqn:He; [|exact I].
      set (next := match es with
            | [e1; e2] => if negb (Nat.eqb (e_to e1) prev) then Some e1
                          else if negb (Nat.eqb (e_to e2) prev) then Some e2 else None
            | [e1] => if negb (Nat.eqb (e_to e1) prev) then Some e1 else None
            | _ => None end).
      destruct next as [e'|] eqn:En; [|exact I].
      assert (N1 : In e' es /\ e_to e' <> prev).
      { unfold next in En. destruct es as [|e1 [|e2 [|e3 es]]]; try discriminate;
          repeat match type of En with (if ?b then _ else _) = _ => destruct b eqn:? end;
          try discriminate; injection En as <-; (split; [cbn; tauto | lia]). }
      destruct N1 as [Ie' Ne'].
      destruct (edge_from_edges _ f x k a e' es Ef E1 Hk He Ie') as [x' He'].
      assert (Some pp <> Some x').
      { intros Q. injection Q as <-. apply Ne'. destruct He' as [E1' _]. eapply ids_inj; eassumption. }
      specialize (IH (e_to e) x (Some pp) e' x' E1 He' H).
      destruct (traverse g end_ k fuel (e_to e) e') as [| |l]; [exact IH | exact I |].
      destruct IH as [s [S1 [S2 [S3 [s' [v [m [-> S4]]]]]]]].
      exists ((x, e_valid e, e_min e) :: s' ++ [(z, v, m)]). repeat split.
      + constructor; [cbn; auto | exact S1].
      + apply path_cons; assumption.
      + cbn [List.length]; lia.
      + exists ((x, e_valid e, e_min e) :: s'), v, m. split; [reflexivity|].
        intros y [<-|I]; [|apply S4, I]. cbn [fst]. intros ->. apply NE. eapply ids_inj; eassumption.
  Qed.

  Lemma try_edges_spec end_ z k a start p : nth_error (airways h) k = Some a ->
    nth_error (points h) end_ = Some z -> nth_error (points h) start = Some p ->
    forall es, (forall e, In e es -> exists x, edge_from a p e x) ->
    match try_edges g start end_ k es with
    | XPanic => False
    | XNone => True
    | XSome l => exists s, pt_steps l s /\ path h a None p s /\ List.length l <= List.length (points h) /\
         exists s' v m, s = s' ++ [(z, v, m)] /\ forall y, In y s' -> fst (fst y) <> z
    end.
  Proof.
    intros Hk Hz Hp. induction es as [|e es IH]; intros F; cbn [try_edges]; [exact I|].
    destruct (F e (or_introl eq_refl)) as [x Hx].
    assert (None <> Some x) as Nx by discriminate.
    pose proof (traverse_spec end_ z k a Hk Hz (List.length (fixes g)) start p None e x Hp Hx Nx) as T.
    rewrite (rp_len _ _ _ _ _ HR) in *.
    destruct (traverse g end_ k (List.length (points h)) start e) as [| |l]; [exact T | | exact T].
    apply IH. intros; apply F; right; assumption.
  Qed.

  Lemma name_fixes_spec internal l s : pt_steps l s ->
    exists r, name_fixes internal g l = XSome r /\ map step_of r = s /\
      Forall (fun x => is_position h (fst (fst (step_of x))) (af_pos (fst x)) /\
                       snd x = internal (af_name (fst x)) (af_pos (fst x))) r.
  Proof.
    intros F. induction F as [|[[id v] m] [[y v'] m'] l s [H1 [H2 H3]] F IH]; cbn [fst snd] in *.
    - exists []. repeat split. constructor.
    - subst v' m'. destruct IH as [r [E1 [E2 E3]]]. cbn [name_fixes].
      destruct (Rep_fix HR _ _ H1) as [f Ef]. destruct (Rep_point HR _ _ Ef) as [p' [A [B C]]].
      assert (p' = y) as -> by congruence. unfold fix_at. rewrite B, Ef, E1.
      assert (ST : forall b, step_of (mkAfix (fst y) (g_pos f) v m, b) = (y, v, m)).
      { intros b. unfold step_of; cbn [fst af_name af_pos af_valid af_min].
        rewrite C. destruct y; reflexivity. }
      eexists. split; [reflexivity|]. cbn [map]. rewrite ST, E2. split; [reflexivity|].
      constructor; [|exact E3]. rewrite ST. cbn [fst snd af_name af_pos]. split; [|reflexivity].
      apply (positions id f y Ef H1).
  Qed.

  (** expand as a whole *)
  Lemma expand_spec internal sn sp en a :
    match expand internal g sn sp en a with
    | XPanic => False
    | XNone => True
    | XSome r =>
      exists p z s' v m,
        start_point h a sn sp = Some p /\ first_on h a en = Some z /\
        path h a None p (map step_of r) /\ map step_of r = s' ++ [(z, v, m)] /\
        (forall y, In y s' -> fst (fst y) <> z) /\
        List.length r <= List.length (points h) /\
        Forall (fun x => is_position h (fst (fst (step_of x))) (af_pos (fst x)) /\
                         snd x = internal (af_name (fst x)) (af_pos (fst x))) r
    end.
  Proof.
    unfold expand. destruct (get a (airway_id_by_name g)) as [k|] eqn:Hk; [|exact I].
    apply awy_id in Hk.
    destruct (find_start k a sn sp Hk) as [r [found [E1 [E2 E3]]]]. rewrite E1, E2.
    destruct r as [start|]; [|exact I]. destruct E3 as [p [Ep Sp]].
    destruct (Rep_fix HR _ _ Ep) as [sf Esf]. unfold fix_at at 1. rewrite Esf.
    destruct (negb (on_airway k sf)); [exact I|].
    destruct (find_on k a en Hk) as [r [F1 F2]]. rewrite F1.
    destruct r as [end_|]; [|exact I]. destruct F2 as [z [Ez Fz]].
    destruct (get k (g_edges sf)) as [es|] eqn:He; [|exact I].
    destruct (Nat.ltb 2 (List.length es)); [exact I|].
    pose proof (try_edges_spec end_ z k a start p Hk Ez Ep es) as T.
    destruct (try_edges g start end_ k es) as [| |l].
    - apply T. intros e Ie. eapply edge_from_edges; eassumption.
    - exact I.
    - destruct T as [s [S1 [S2 [S3 [s' [v [m [-> S4]]]]]]]].
      { intros e Ie. eapply edge_from_edges; eassumption. }
      destruct (name_fixes_spec internal _ _ S1) as [r [-> [R1 R2]]].
      exists p, z, s', v, m. rewrite R1. repeat split; try assumption.
      rewrite <- (map_length step_of), R1. apply Forall2_length in S1. rewrite <- S1. exact S3.
  Qed.
End Built.

Lemma stored_frame h s g g' a p q v m :
  insert_all empty_graph h = Some g -> insert_seg g s = Some g' -> joins a p q s = false ->
  stored g a p q v m <-> stored g' a p q v m.
Proof.
  intros E1 E2 J.
  assert (E3 : insert_all empty_graph (h ++ [s]) = Some g') by (rewrite insert_all_snoc, E1; exact E2).
  rewrite (stored_spec h g E1), (stored_spec (h ++ [s]) g' E3).
  assert (JI : joins a p q s = true <->
     s_awy s = a /\ ((seg_from s = p /\ seg_to s = q) \/ (seg_from s = q /\ seg_to s = p))).
  { unfold joins. rewrite andb_true_iff, orb_true_iff, !andb_true_iff, !eqb_true. reflexivity. }
  assert (N : In q (neighbours h a p) <-> In q (neighbours (h ++ [s]) a p)).
  { rewrite !neighbours_In. split.
    - intros [s' [I X]]. exists s'. rewrite in_app_iff. tauto.
    - intros [s' [I X]]. rewrite in_app_iff in I. destruct I as [I|[<-|[]]]; [eauto|].
      apply JI in X. congruence. }
  assert (M : may_fly (h ++ [s]) a p q = may_fly h a p q).
  { unfold may_fly. rewrite existsb_snoc.
    destruct (eqb (s_awy s) a && eqb (seg_from s) p && eqb (seg_to s) q && s_valid s) eqn:Q;
      [|apply orb_false_r].
    exfalso. rewrite !andb_true_iff, !eqb_true in Q. assert (joins a p q s = true) by (apply JI; tauto). congruence. }
  assert (L : levels (h ++ [s]) a p q = levels h a p q).
  { unfold levels. rewrite flat_map_snoc, J, app_nil_r. reflexivity. }
  rewrite M, L, N. reflexivity.
Qed.

(** * Chains (C14) *)
Lemma adjacent_sym c p q : adjacent c p q <-> adjacent c q p.
Proof. split; intros [l1 [l2 [E|E]]]; exists l1, l2; tauto. Qed.

Lemma adjacent_rev c p q : adjacent c p q -> adjacent (rev c) p q.
Proof.
  intros [l1 [l2 [->| ->]]]; exists (rev l2), (rev l1);
    rewrite rev_app_distr; cbn [rev]; rewrite <- !app_assoc; cbn; tauto.
Qed.

Lemma is_chain_rev h a c : is_chain h a c -> is_chain h a (rev c).
Proof.
  intros [ND S A]. constructor.
  - apply NoDup_rev, ND.
  - intros s I E. apply adjacent_rev, S; assumption.
  - intros l1 p q l2 E. assert (E' : c = rev l2 ++ q :: p :: rev l1).
    { rewrite <- (rev_involutive c), E, rev_app_distr. cbn [rev]. rewrite <- !app_assoc. reflexivity. }
    destruct (A _ _ _ _ E') as [s [I [Ea X]]]. exists s. tauto.
Qed.

Lemma nodup_split {T} (l1 l2 l1' l2' : list T) x :
  NoDup (l1 ++ x :: l2) -> l1 ++ x :: l2 = l1' ++ x :: l2' -> l1 = l1' /\ l2 = l2'.
Proof.
  revert l1'. induction l1 as [|y l1 IH]; intros l1' ND E; destruct l1' as [|y' l1']; cbn in *.
  - injection E as ->; auto.
  - injection E as -> ->. inversion ND as [|? ? N ND']; subst. exfalso. apply N. rewrite in_app_iff; right; left; reflexivity.
  - injection E as -> E. inversion ND as [|? ? N ND']; subst. exfalso. apply N. rewrite in_app_iff; right; left; reflexivity.
  - injection E as -> E. inversion ND; subst. destruct (IH l1') as [-> ->]; auto.
Qed.

Lemma chain_neighbours h a c : is_chain h a c ->
  forall p q, In q (neighbours h a p) <-> adjacent c p q.
Proof.
  intros [ND S A] p q. rewrite neighbours_In. split.
  - intros [s [I [Ea [[<- <-]|[<- <-]]]]]; [|apply adjacent_sym]; apply S; assumption.
  - intros [l1 [l2 [E|E]]]; destruct (A _ _ _ _ E) as [s [I [Ea X]]]; exists s; tauto.
Qed.

(** neighbours of the last point / of an inner point *)
Lemma adj_last c c1 x y q : NoDup c -> c = c1 ++ [x; y] -> adjacent c y q <-> q = x.
Proof.
  intros ND E. split.
  - intros [l1 [l2 [E2|E2]]].
    + assert (X : (c1 ++ [x]) ++ y :: [] = l1 ++ y :: q :: l2) by (rewrite <- app_assoc; cbn; congruence).
      apply nodup_split in X; [|rewrite <- app_assoc; cbn; congruence]. destruct X; discriminate.
    + assert (X : (c1 ++ [x]) ++ y :: [] = (l1 ++ [q]) ++ y :: l2) by (rewrite <- !app_assoc; cbn; congruence).
      apply nodup_split in X; [|rewrite <- app_assoc; cbn; congruence]. destruct X as [X _].
      apply app_inj_tail in X. destruct X; congruence.
  - intros ->. exists c1, []. right; exact E.
Qed.

Lemma adj_mid c c1 x y z c2 q : NoDup c -> c = c1 ++ x :: y :: z :: c2 ->
  adjacent c y q <-> q = x \/ q = z.
Proof.
  intros ND E. split.
  - intros [l1 [l2 [E2|E2]]].
    + assert (X : (c1 ++ [x]) ++ y :: z :: c2 = l1 ++ y :: q :: l2) by (rewrite <- app_assoc; cbn; congruence).
      apply nodup_split in X; [|rewrite <- app_assoc; cbn; congruence]. destruct X as [_ X]. injection X; auto.
    + assert (X : (c1 ++ [x]) ++ y :: z :: c2 = (l1 ++ [q]) ++ y :: l2) by (rewrite <- !app_assoc; cbn; congruence).
      apply nodup_split in X; [|rewrite <- app_assoc; cbn; congruence]. destruct X as [X _].
      apply app_inj_tail in X. destruct X; auto.
  - intros [->| ->]; [exists c1, (z :: c2); right; exact E | exists (c1 ++ [x]), c2; left; rewrite <- app_assoc; exact E].
Qed.

Lemma adj_first c y z c2 q : NoDup c -> c = y :: z :: c2 -> adjacent c y q <-> q = z.
Proof.
  intros ND E. split.
  - intros [l1 [l2 [E2|E2]]].
    + assert (X : [] ++ y :: z :: c2 = l1 ++ y :: q :: l2) by (cbn; congruence).
      apply nodup_split in X; [|cbn; congruence]. destruct X as [_ X]. injection X; auto.
    + assert (X : [] ++ y :: z :: c2 = (l1 ++ [q]) ++ y :: l2) by (rewrite <- !app_assoc; cbn; congruence).
      apply nodup_split in X; [|cbn; congruence]. destruct X as [X _]. destruct l1; discriminate.
  - intros ->. exists [], c2. left; exact E.
Qed.

Section Chain.
  Context (h : list segment) (g : graph) (Eg : insert_all empty_graph h = Some g).
  Context (a : text) (k : nat) (Hk : nth_error (airways h) k = Some a).
  Let HR := built_rep h g Eg.

  Definition ids_pts (l : list (nat * bool * option N)) (ps : list apoint) : Prop :=
    map (fun x => nth_error (points h) (fst (fst x))) l = map Some ps.

  (** edge lists by neighbour sets *)
  Lemma edges_perm i f p es : nth_error (fixes g) i = Some f -> nth_error (points h) i = Some p ->
    edges_at f k = es -> map (fun e => nth_error (points h) (e_to e)) es = map Some (neighbours h a p).
  Proof.
    intros Hf Hp <-. pose proof (edges_spec h g Eg i f p k a Hf Hp Hk) as F.
    clear - F. induction F as [|e x es xs [H _] F IH]; [reflexivity|]. cbn. rewrite H, IH. reflexivity.
  Qed.

  Lemma set_one (l : list apoint) x : NoDup l -> (forall q, In q l <-> q = x) -> l = [x].
  Proof.
    intros ND S. destruct l as [|y [|z l]].
    - exfalso. apply (proj2 (S x) eq_refl).
    - f_equal. apply S. left; reflexivity.
    - exfalso. inversion ND as [|? ? N _]; subst. apply N. left.
      transitivity x; [apply S; right; left; reflexivity | symmetry; apply S; left; reflexivity].
  Qed.
  Lemma set_two (l : list apoint) x z : x <> z -> NoDup l -> (forall q, In q l <-> q = x \/ q = z) ->
    l = [x; z] \/ l = [z; x].
  Proof.
    intros D ND S.
    assert (Pm : Permutation [x; z] l).
    { apply NoDup_Permutation; [|exact ND|].
      - constructor; [intros [E|[]]; congruence|]. constructor; [intros [] | constructor].
      - intros q. rewrite S. cbn. intuition congruence. }
    apply Permutation_length_2_inv in Pm. tauto.
  Qed.

  Lemma traverse_chain c : is_chain h a c ->
    forall end_ q, nth_error (points h) end_ = Some q ->
    forall c2 c1 x y prev e fuel,
    c = c1 ++ x :: y :: c2 -> nth_error (points h) prev = Some x -> nth_error (points h) (e_to e) = Some y ->
    List.length c2 < fuel ->
    (forall m r, y :: c2 = m ++ q :: r -> exists l, traverse g end_ k fuel prev e = XSome l /\ ids_pts l (m ++ [q])) /\
    (~ In q (y :: c2) -> traverse g end_ k fuel prev e = XNone).
  Proof.
    intros CH end_ q Hq. pose proof (ch_nodup _ _ _ CH) as ND.
    induction c2 as [|z c2 IH]; intros c1 x y prev e fuel Ec Hx Hy Fu;
      (destruct fuel as [|fuel]; [cbn in Fu; lia|]); cbn [traverse];
      destruct (Rep_fix HR _ _ Hy) as [f Ef]; unfold fix_at; rewrite Ef.
    - (* end of the chain *)
      destruct (Nat.eqb_spec (e_to e) end_) as [Q|Q].
      + assert (y = q) as -> by (rewrite Q in Hy; congruence). split.
        * intros m r E. destruct m as [|w m]; [|destruct m; discriminate].
          eexists; split; [reflexivity|]. unfold ids_pts; cbn. rewrite Hy. reflexivity.
        * intros N; exfalso; apply N; left; reflexivity.
      + assert (y <> q) by (intros ->; apply Q; eapply ids_inj; eassumption).
        split.
        * intros m r E. destruct m as [|w m]; [injection E; congruence | destruct m; discriminate].
        * intros _.
          assert (NB : neighbours h a y = [x]).
          { apply set_one; [apply dedup_NoDup|]. intros w. rewrite (chain_neighbours h a c CH).
            eapply adj_last; [exact ND | exact Ec]. }
          pose proof (edges_perm (e_to e) f y _ Ef Hy eq_refl) as EP. rewrite NB in EP. unfold edges_at in EP.
          destruct (get k (g_edges f)) as [es|]; [|reflexivity].
          destruct es as [|e1 [|e2 es]]; try discriminate. cbn in EP. injection EP as EP.
          assert (e_to e1 = prev) as -> by (eapply ids_inj; eassumption).
          rewrite Nat.eqb_refl. reflexivity.
    - cbn [List.length] in Fu.
      destruct (Nat.eqb_spec (e_to e) end_) as [Q|Q].
      + assert (y = q) as -> by (rewrite Q in Hy; congruence). split.
        * intros m r E. destruct m as [|w m].
          -- eexists; split; [reflexivity|]. unfold ids_pts; cbn. rewrite Hy. reflexivity.
          -- exfalso. injection E as -> E.
             rewrite Ec in ND. apply NoDup_remove_2 with (l := c1 ++ [x]) (a := w) (l' := z :: c2).
             { rewrite <- app_assoc. exact ND. }
             rewrite in_app_iff. right. rewrite E, in_app_iff. right; left; reflexivity.
        * intros N; exfalso; apply N; left; reflexivity.
      + assert (NQ : y <> q) by (intros ->; apply Q; eapply ids_inj; eassumption).
        assert (XZ : x <> z).
        { intros ->. rewrite Ec in ND. apply NoDup_remove_2 in ND. apply ND. rewrite in_app_iff. right; right; left; reflexivity. }
        assert (NB : neighbours h a y = [x; z] \/ neighbours h a y = [z; x]).
        { apply set_two; [exact XZ | apply dedup_NoDup|]. intros w. rewrite (chain_neighbours h a c CH).
          eapply adj_mid; [exact ND | exact Ec]. }
        pose proof (edges_perm (e_to e) f y _ Ef Hy eq_refl) as EP. unfold edges_at in EP.
        assert (NXT : exists es e', get k (g_edges f) = Some es /\
           match es with
           | [e1; e2] => if negb (Nat.eqb (e_to e1) prev) then Some e1
                         else if negb (Nat.eqb (e_to e2) prev) then Some e2 else None
           | [e1] => if negb (Nat.eqb (e_to e1) prev) then Some e1 else None
           | _ => None end = Some e' /\ nth_error (points h) (e_to e') = Some z).
        { destruct (get k (g_edges f)) as [es|]; [|destruct NB as [NB|NB]; rewrite NB in EP; discriminate].
          exists es.
          destruct NB as [NB|NB]; rewrite NB in EP;
            destruct es as [|e1 [|e2 [|e3 es]]]; try discriminate; cbn in EP; injection EP as P1 P2.
          - exists e2. split; [reflexivity|]. split; [|exact P2].
            assert (e_to e1 = prev) as -> by (eapply ids_inj; eassumption). rewrite Nat.eqb_refl. cbn [negb].
            destruct (Nat.eqb_spec (e_to e2) prev) as [W|W]; [exfalso; congruence | reflexivity].
          - exists e1. split; [reflexivity|]. split; [|exact P1].
            destruct (Nat.eqb_spec (e_to e1) prev) as [W|W]; [exfalso; congruence | reflexivity]. }
        destruct NXT as [es [e' [-> [-> He']]]].
        destruct (IH (c1 ++ [x]) y z (e_to e) e' fuel) as [I1 I2]; try assumption.
        { rewrite <- app_assoc. exact Ec. }
        { lia. }
        split.
        * intros m r E. destruct m as [|w m]; [injection E; congruence|]. injection E as <- E.
          destruct (I1 m r E) as [l [-> Hl]]. eexists; split; [reflexivity|].
          unfold ids_pts in *. cbn [map app fst]. rewrite Hy, Hl. reflexivity.
        * intros N. rewrite I2; [reflexivity|]. intros X; apply N; right; exact X.
  Qed.

  Lemma name_fixes_ids internal l ps : ids_pts l ps ->
    exists r, name_fixes internal g l = XSome r /\ map (fun x => fst (fst (step_of x))) r = ps.
  Proof.
    intros E.
    assert (exists s, pt_steps h l s /\ map (fun y => fst (fst y)) s = ps) as [s [S1 S2]].
    { revert ps E. induction l as [|[[i v] m] l IH]; intros [|p ps] E; try discriminate.
      - exists []. split; [constructor | reflexivity].
      - unfold ids_pts in E. cbn in E. injection E as E1 E2. destruct (IH ps E2) as [s [A B]].
        exists ((p, v, m) :: s). split; [constructor; [cbn; auto | exact A] | cbn; rewrite B; reflexivity]. }
    destruct (name_fixes_spec h g Eg internal l s S1) as [r [E1 [E2 _]]].
    exists r. split; [exact E1|]. rewrite <- S2, <- E2, map_map. reflexivity.
  Qed.

  (** expansion forwards along the chain *)
  Lemma expand_chain internal c : is_chain h a c ->
    forall l1 p m q l2 sp, c = l1 ++ p :: m ++ q :: l2 -> quantize sp = snd p ->
    (forall z, In z c -> fst z = fst q -> z = q) ->
    exists r, expand internal g (fst p) sp (fst q) a = XSome r /\
      map (fun x => fst (fst (step_of x))) r = m ++ [q].
  Proof.
    intros CH l1 p m q l2 sp Ec Hsp UQ. pose proof (ch_nodup _ _ _ CH) as ND.
    assert (NP : exists n c2, m ++ q :: l2 = n :: c2) by (destruct m; cbn; eauto).
    destruct NP as [n [c2 NP]].
    assert (AD : forall u v, In v (neighbours h a u) <-> adjacent c u v) by apply (chain_neighbours h a c CH).
    assert (PTS : forall u, In u c -> In u (points h)).
    { intros u I. apply in_split in I. destruct I as [u1 [u2 E]].
      assert (X : exists w, adjacent c u w).
      { destruct u2 as [|w u2]; [|exists w, u1, u2; left; exact E].
        destruct u1 as [|w u1] using rev_ind.
        - exfalso. assert (L : List.length c = 1) by (rewrite E; reflexivity).
          rewrite Ec, app_length in L. cbn [List.length] in L. rewrite app_length in L. cbn [List.length] in L. lia.
        - exists w, u1, []. right. rewrite E, <- app_assoc. reflexivity. }
      destruct X as [w X]. apply AD in X. apply (neighbours_point h) in X. tauto. }
    assert (Ip : In p c) by (rewrite Ec, in_app_iff; right; left; reflexivity).
    assert (Iq : In q c) by (rewrite Ec, in_app_iff; right; right; rewrite in_app_iff; right; left; reflexivity).
    assert (ONc : forall u, on h a u = true -> In u c).
    { intros u O. unfold on in O. destruct (neighbours h a u) as [|w ns] eqn:N; [discriminate|].
      assert (I : In w (neighbours h a u)) by (rewrite N; left; reflexivity).
      apply AD in I. destruct I as [u1 [u2 [E|E]]]; rewrite E, in_app_iff; right; cbn; tauto. }
    assert (ON : forall u v, adjacent c u v -> on h a u = true).
    { intros u v X. apply AD in X. unfold on. destruct (neighbours h a u); [destruct X | reflexivity]. }
    assert (ADp : adjacent c p n) by (exists l1, c2; left; rewrite Ec, NP; reflexivity).
    assert (ADq : exists v, adjacent c q v).
    { destruct m as [|w m] using rev_ind.
      - exists p, l1, l2. right. exact Ec.
      - exists w, (l1 ++ p :: m), l2. right. rewrite Ec. rewrite <- !app_assoc. reflexivity. }
    unfold expand. rewrite (proj2 (awy_id h g Eg a k) Hk).
    destruct (find_start h g Eg k a (fst p) sp Hk) as [r [found [E1 [E2 E3]]]]. rewrite E1, E2.
    assert (SP : start_point h a (fst p) sp = Some p).
    { unfold start_point. rewrite Hsp. replace (fst p, snd p) with p by (destruct p; reflexivity).
      match goal with |- context [in_dec ?d ?x ?l] => destruct (in_dec d x l) as [_|C] end;
        [reflexivity|]. exfalso; apply C, PTS, Ip. }
    rewrite SP in E3. destruct r as [start|]; [|discriminate].
    destruct E3 as [p' [Ep Sp]]. injection Sp as <-.
    destruct (Rep_fix HR _ _ Ep) as [sf Esf]. unfold fix_at at 1. rewrite Esf.
    rewrite (on_airway_on h g Eg k a start sf p Hk Esf Ep), (ON p n ADp). cbn [negb].
    destruct (find_on h g Eg k a (fst q) Hk) as [r [F1 F2]]. rewrite F1.
    assert (FQ : first_on h a (fst q) = Some q).
    { unfold first_on. match goal with |- find ?f ?l = _ => destruct (find f l) as [w|] eqn:FD end.
      - apply find_some in FD. destruct FD as [_ FD]. rewrite andb_true_iff, eqb_true in FD.
        f_equal. apply UQ; [apply ONc|]; tauto.
      - destruct ADq as [v ADq]. pose proof (find_none _ _ FD q (PTS q Iq)) as X.
        cbn beta in X. rewrite eqb_refl, (ON q v ADq) in X. discriminate. }
    rewrite FQ in F2. destruct r as [end_|]; [|discriminate]. destruct F2 as [q' [Eq Q]]. injection Q as <-.
    pose proof (edges_perm start sf p _ Esf Ep eq_refl) as EP. unfold edges_at in EP.
    pose proof (rp_len _ _ _ _ _ HR) as LEN.
    assert (LC : List.length c <= List.length (points h)) by (apply NoDup_incl_length; assumption).
    assert (LL : List.length c = List.length l1 + S (S (List.length c2))).
    { rewrite Ec, NP, app_length. reflexivity. }
    (* forward edge works *)
    assert (FWD : forall e, nth_error (points h) (e_to e) = Some n ->
       exists l, traverse g end_ k (List.length (fixes g)) start e = XSome l /\ ids_pts l (m ++ [q])).
    { intros e He. eapply (proj1 (traverse_chain c CH end_ q Eq c2 l1 p n start e _ _ Ep He _)).
      - symmetry; exact NP. }
    assert (FIN : forall es, (exists l, try_edges g start end_ k es = XSome l /\ ids_pts l (m ++ [q])) ->
       exists r, match try_edges g start end_ k es with
                 | XSome l => name_fixes internal g l | XNone => XNone | XPanic => XPanic end = XSome r /\
         map (fun x => fst (fst (step_of x))) r = m ++ [q]).
    { intros es [l [-> Hl]]. apply name_fixes_ids, Hl. }
    destruct l1 as [|o l1] using rev_ind.
    - (* p is the first point *)
      assert (NB : neighbours h a p = [n]).
      { apply set_one; [apply dedup_NoDup|]. intros w. rewrite AD.
        eapply adj_first; [exact ND | rewrite Ec, NP; reflexivity]. }
      rewrite NB in EP. destruct (get k (g_edges sf)) as [es|]; [|discriminate].
      destruct es as [|e1 [|e2 es]]; try discriminate. cbn in EP. injection EP as EP.
      change (Nat.ltb 2 (List.length [e1])) with false. cbv iota.
      apply FIN. destruct (FWD e1 EP) as [l [T Hl]]. exists l. cbn [try_edges]. rewrite T. auto.
    - clear IHl1. rewrite <- app_assoc in Ec. cbn [app] in Ec.
      assert (ON' : o <> n).
      { intros ->. rewrite NP in Ec. rewrite Ec in ND. apply NoDup_remove_2 in ND. apply ND.
        rewrite in_app_iff. right; right; left; reflexivity. }
      assert (NB : neighbours h a p = [o; n] \/ neighbours h a p = [n; o]).
      { apply set_two; [exact ON' | apply dedup_NoDup|]. intros w. rewrite AD.
        eapply adj_mid; [exact ND | rewrite Ec, NP; reflexivity]. }
      assert (BWD : forall e, nth_error (points h) (e_to e) = Some o ->
         traverse g end_ k (List.length (fixes g)) start e = XNone).
      { intros e He.
        assert (CR : rev c = rev c2 ++ [n] ++ p :: o :: rev l1).
        { rewrite Ec, NP, rev_app_distr. cbn [rev]. rewrite <- !app_assoc. reflexivity. }
        rewrite app_assoc in CR.
        eapply (proj2 (traverse_chain (rev c) (is_chain_rev h a c CH) end_ q Eq (rev l1) (rev c2 ++ [n]) p o start e _ CR Ep He _)).
        intros I. rewrite Ec in ND.
        assert (In q (l1 ++ [o])).
        { rewrite in_app_iff. destruct I as [->|I]; [right; left; reflexivity | left; apply in_rev; exact I]. }
        assert (ND2 : NoDup (((l1 ++ [o]) ++ p :: m) ++ q :: l2)).
        { rewrite <- !app_assoc. cbn. exact ND. }
        apply NoDup_remove_2 in ND2. apply ND2. rewrite !in_app_iff. rewrite in_app_iff in H. tauto. }
      destruct NB as [NB|NB]; rewrite NB in EP; (destruct (get k (g_edges sf)) as [es|]; [|discriminate]);
        destruct es as [|e1 [|e2 [|e3 es]]]; try discriminate; cbn in EP; injection EP as P1 P2;
        change (Nat.ltb 2 (List.length [e1; e2])) with false; cbv iota; apply FIN; cbn [try_edges].
      + rewrite (BWD e1 P1). destruct (FWD e2 P2) as [l [T Hl]]. exists l. rewrite T. auto.
      + destruct (FWD e1 P1) as [l [T Hl]]. exists l. rewrite T. auto.
    Unshelve. all: try (rewrite Ec, NP; reflexivity).
    all: rewrite ?rev_length; rewrite LEN; rewrite ?app_length in LL; cbn [List.length] in LL; lia.
  Qed.
End Chain.

Lemma chain_has_id h a c before p mid q after : is_chain h a c ->
  c = before ++ p :: mid ++ q :: after -> exists k, nth_error (airways h) k = Some a.
Proof.
  intros CH E. apply In_nth_error. unfold airways. rewrite dedup_In.
  assert (X : exists n c2, mid ++ q :: after = n :: c2) by (destruct mid; cbn; eauto).
  destruct X as [n [c2 X]]. rewrite X in E. destruct (ch_all _ _ _ CH _ _ _ _ E) as [s [I [<- _]]].
  apply in_map, I.
Qed.

Lemma expand_chain_back h g internal a c before p mid q after sp :
  insert_all empty_graph h = Some g -> is_chain h a c ->
  c = before ++ q :: mid ++ p :: after -> quantize sp = snd p ->
  (forall z, In z c -> fst z = fst q -> z = q) ->
  exists r, expand internal g (fst p) sp (fst q) a = XSome r /\
    map (fun x => fst (fst (step_of x))) r = rev mid ++ [q].
Proof.
  intros E CH Ec Hsp U.
  assert (Er : rev c = rev after ++ p :: rev mid ++ q :: rev before).
  { rewrite Ec, rev_app_distr. cbn [rev]. rewrite rev_app_distr. cbn [rev]. rewrite <- !app_assoc. reflexivity. }
  pose proof (is_chain_rev _ _ _ CH) as CR.
  destruct (chain_has_id h a _ _ p _ q _ CR Er) as [k Hk].
  apply (expand_chain h g E a k Hk internal (rev c) CR _ p (rev mid) q _ sp Er Hsp).
  intros z I. apply U. apply in_rev, I.
Qed.
