From Coq Require Import ZifyBool ZifyN ZifyNat.
From Verif Require Import Base Float Airways SpecAirways.

(** * dedup *)
Section Dedup.
  Context {A : Type} `{EqDec A}.

  Lemma dedup_In (l : list A) x : In x (dedup l) <-> In x l.
  Proof.
    revert x; induction l as [|y l IH]; intros x; cbn [dedup]; [reflexivity|].
    cbn [In]. rewrite filter_In, IH. destruct (eq_dec y x) as [->|n].
    - split; [tauto | intros _; left; reflexivity].
    - rewrite negb_true_iff, eqb_false. tauto.
  Qed.

  Lemma dedup_NoDup (l : list A) : NoDup (dedup l).
  Proof.
    induction l as [|y l IH]; cbn [dedup]; [constructor|].
    constructor; [|apply NoDup_filter, IH].
    rewrite filter_In, negb_true_iff, eqb_false. tauto.
  Qed.

  Lemma filter_all_true (f : A -> bool) l : (forall x, In x l -> f x = true) -> filter f l = l.
  Proof.
    induction l as [|y l IH]; cbn; intros E; [reflexivity|].
    rewrite E by (left; reflexivity). f_equal; apply IH; intros; apply E; right; assumption.
  Qed.

  Lemma dedup_snoc (l : list A) x :
    dedup (l ++ [x]) = if in_dec eq_dec x l then dedup l else dedup l ++ [x].
  Proof.
    induction l as [|y l IH]; [reflexivity|].
    cbn [app dedup]. rewrite IH.
    destruct (in_dec eq_dec x l) as [I|NI].
    - destruct (in_dec eq_dec x (y :: l)) as [_|C]; [reflexivity|]. exfalso; apply C; right; exact I.
    - rewrite filter_app. cbn [filter].
      destruct (in_dec eq_dec x (y :: l)) as [[->|I]|C].
      + rewrite eqb_refl; cbn [negb]. rewrite app_nil_r; reflexivity.
      + contradiction.
      + assert (eqb y x = false) as -> by (apply eqb_false; intros ->; apply C; left; reflexivity).
        reflexivity.
  Qed.

  Lemma dedup_id (l : list A) : NoDup l -> dedup l = l.
  Proof.
    induction l as [|y l IH]; cbn; intros ND; [reflexivity|].
    inversion ND as [|? ? nI ND']; subst. rewrite IH by assumption. f_equal.
    apply filter_all_true. intros x I. rewrite negb_true_iff, eqb_false. intros ->; contradiction.
  Qed.
End Dedup.

Lemma Forall2_impl {A B} (P Q : A -> B -> Prop) l l' :
  (forall a b, P a b -> Q a b) -> Forall2 P l l' -> Forall2 Q l l'.
Proof. intros H F; induction F; constructor; auto. Qed.

Lemma Forall2_length {A B} (P : A -> B -> Prop) l l' :
  Forall2 P l l' -> List.length l = List.length l'.
Proof. intros F; induction F; cbn; auto. Qed.

(** * Directed edge events *)
Record ev := mkEv { v_awy : text; v_from : apoint; v_to : apoint; v_ok : bool; v_min : option N }.

Definition evs_of (s : segment) : list ev :=
  [mkEv (s_awy s) (seg_from s) (seg_to s) (s_valid s) (s_min s);
   mkEv (s_awy s) (seg_to s) (seg_from s) false (s_min s)].

Definition ev_at (a : text) (p : apoint) (e : ev) : bool := eqb (v_awy e) a && eqb (v_from e) p.
Definition ev_is (a : text) (p x : apoint) (e : ev) : bool := ev_at a p e && eqb (v_to e) x.
Definition nbrs (E : list ev) a p : list apoint := dedup (map v_to (filter (ev_at a p) E)).
Definition evalid (E : list ev) a p x : bool := existsb (fun e => ev_is a p x e && v_ok e) E.
Definition elev (E : list ev) a p x : list N :=
  flat_map (fun e => if ev_is a p x e then match v_min e with Some l => [l] | None => [] end else []) E.

Lemma least_ext l l' m : (forall x, In x l <-> In x l') -> least l m -> least l' m.
Proof.
  intros E. destruct m as [m|]; cbn.
  - intros [I B]. split; [apply E, I | intros y Iy; apply B, E, Iy].
  - intros ->. destruct l' as [|y l']; [reflexivity|]. exfalso. apply (proj2 (E y)); left; reflexivity.
Qed.

Lemma least_snoc l m o :
  least l m -> least (l ++ match o with Some x => [x] | None => [] end) (merge_opt N.min m o).
Proof.
  intros L. destruct o as [x|]; [|rewrite app_nil_r; destruct m; exact L].
  destruct m as [m|]; cbn in *.
  - destruct L as [I B]. split.
    + rewrite in_app_iff. destruct (N.min_spec m x) as [[_ ->]|[_ ->]]; [left; exact I | right; left; reflexivity].
    + intros y Iy. rewrite in_app_iff in Iy. destruct Iy as [Iy|[->|[]]]; [specialize (B y Iy)|]; lia.
  - subst l. cbn. split; [left; reflexivity|]. intros y [->|[]]; lia.
Qed.

(** * Representation invariant *)
Definition key_of (r : text * point) : apoint := (fst r, quantize (snd r)).

Fixpoint idxs_from (k : nat) (n : text) (P : list apoint) : list nat :=
  match P with
  | [] => []
  | p :: P => (if eqb (fst p) n then [k] else []) ++ idxs_from (S k) n P
  end.
Definition idxs := idxs_from 0.

Lemma idxs_from_snoc k n P p :
  idxs_from k n (P ++ [p]) = idxs_from k n P ++ (if eqb (fst p) n then [k + List.length P] else []).
Proof.
  revert k; induction P as [|x P IH]; intros k; cbn [app idxs_from List.length].
  - rewrite Nat.add_0_r, app_nil_r. reflexivity.
  - rewrite IH, <- app_assoc. rewrite Nat.add_succ_l, Nat.add_succ_r. reflexivity.
Qed.

Lemma idxs_from_In k n P i :
  In i (idxs_from k n P) <-> exists qq, k <= i /\ nth_error P (i - k) = Some (n, qq).
Proof.
  revert k; induction P as [|[m qm] P IH]; intros k; cbn [idxs_from].
  - split; [intros []|]. intros [qq [_ E]]. destruct (i - k); discriminate.
  - rewrite in_app_iff, IH. cbn [fst]. split.
    + intros [I|[qq [Hk E]]].
      * unfold eqb in I. destruct (eq_dec m n) as [->|]; [|destruct I].
        destruct I as [->|[]]. exists qm. rewrite Nat.sub_diag. split; [lia|reflexivity].
      * exists qq. split; [lia|]. replace (i - k) with (S (i - S k)) by lia. exact E.
    + intros [qq [Hk E]]. destruct (Nat.eq_dec i k) as [->|Hne].
      * left. rewrite Nat.sub_diag in E. cbn in E. injection E as -> ->. rewrite eqb_refl. left; reflexivity.
      * right. exists qq. split; [lia|]. replace (i - k) with (S (i - S k)) in E by lia. exact E.
Qed.

Lemma idxs_In n P i : In i (idxs n P) <-> exists qq, nth_error P i = Some (n, qq).
Proof.
  unfold idxs. rewrite idxs_from_In. rewrite Nat.sub_0_r.
  split; intros [qq H]; exists qq; [tauto | split; [lia | exact H]].
Qed.

Definition edges_at (f : gfix) (k : nat) : list edge :=
  match get k (g_edges f) with Some es => es | None => [] end.

Definition edge_ok (P : list apoint) (E : list ev) (a : text) (p : apoint) (e : edge) (x : apoint) : Prop :=
  nth_error P (e_to e) = Some x /\ e_valid e = evalid E a p x /\ least (elev E a p x) (e_min e).

Record Rep (g : graph) (R : list (text * point)) (P : list apoint) (A : list text) (E : list ev) : Prop := {
  rp_P : P = dedup (map key_of R);
  rp_len : List.length (fixes g) = List.length P;
  rp_nlen : List.length (fix_name_by_id g) = List.length P;
  rp_pts : forall i, point_of_id g i = nth_error P i;
  rp_pos : forall i f p, nth_error (fixes g) i = Some f -> nth_error P i = Some p ->
           exists l1 l2, R = l1 ++ (fst p, g_pos f) :: l2 /\ quantize (g_pos f) = snd p /\
             forall r, In r l1 -> key_of r <> p;
  rp_names : forall n, mget_vec n (fix_id_by_name g) = idxs n P;
  rp_awys : airway_name_by_id g = A;
  rp_awy_nd : NoDup A;
  rp_awy : forall n k, get n (airway_id_by_name g) = Some k <-> nth_error A k = Some n;
  rp_ev : forall e, In e E -> In (v_awy e) A /\ In (v_from e) P /\ In (v_to e) P;
  rp_some : forall i f k es, nth_error (fixes g) i = Some f -> get k (g_edges f) = Some es ->
            es <> [] /\ k < List.length A;
  rp_edges : forall i f p k a, nth_error (fixes g) i = Some f -> nth_error P i = Some p ->
             nth_error A k = Some a -> Forall2 (edge_ok P E a p) (edges_at f k) (nbrs E a p)
}.

Lemma Rep_empty : Rep empty_graph [] [] [] [].
Proof.
  constructor; cbn; try reflexivity; try (constructor; fail); try tauto.
  - intros i. unfold point_of_id; cbn. destruct i; reflexivity.
  - intros i f p X. destruct i; discriminate.
  - intros n k. split; [discriminate | destruct k; discriminate].
  - intros i f k es X. destruct i; discriminate.
  - intros i f p k a X. destruct i; discriminate.
Qed.

(** find_id *)
Lemma find_id_spec g p ids :
  (forall i, In i ids -> i < List.length (fixes g)) ->
  exists r, find_id g p ids = Some r /\
    match r with
    | Some i => In i ids /\ exists f, nth_error (fixes g) i = Some f /\ p f = true
    | None => forall i f, In i ids -> nth_error (fixes g) i = Some f -> p f = false
    end.
Proof.
  induction ids as [|i ids IH]; intros B; cbn [find_id].
  - exists None. split; [reflexivity|]. intros i f [].
  - destruct (nth_error (fixes g) i) as [f|] eqn:E.
    2:{ exfalso. apply nth_error_None in E. specialize (B i (or_introl eq_refl)). lia. }
    unfold fix_at; rewrite E. destruct (p f) eqn:Pf.
    + exists (Some i). split; [reflexivity|]. split; [left; reflexivity | exists f; auto].
    + destruct IH as [r [-> S]]; [intros; apply B; right; assumption|].
      exists r; split; [reflexivity|]. destruct r as [j|].
      * destruct S as [I S]; split; [right; exact I | exact S].
      * intros j f' [<-|I] Ej; [congruence | eauto].
Qed.

Lemma find_named_vec g p n : find_named g p n = find_id g p (mget_vec n (fix_id_by_name g)).
Proof. unfold find_named, mget_vec. destruct (get n (fix_id_by_name g)); reflexivity. Qed.

Section RepLemmas.
  Context {g R P A E} (HR : Rep g R P A E).

  Lemma Rep_NoDup : NoDup P.
  Proof. rewrite (rp_P _ _ _ _ _ HR). apply dedup_NoDup. Qed.

  Lemma Rep_fix i p : nth_error P i = Some p -> exists f, nth_error (fixes g) i = Some f.
  Proof.
    intros E0. destruct (nth_error (fixes g) i) as [f|] eqn:X; [eauto|].
    exfalso. apply nth_error_None in X. rewrite (rp_len _ _ _ _ _ HR) in X.
    apply nth_error_None in X. congruence.
  Qed.

  Lemma Rep_point i f : nth_error (fixes g) i = Some f -> exists p, nth_error P i = Some p /\
     nth_error (fix_name_by_id g) i = Some (fst p) /\ quantize (g_pos f) = snd p.
  Proof.
    intros X. pose proof (rp_pts _ _ _ _ _ HR i) as Y. unfold point_of_id in Y. rewrite X in Y.
    destruct (nth_error (fix_name_by_id g) i) as [n|] eqn:Z.
    - exists (n, quantize (g_pos f)). split; [symmetry; exact Y | split; reflexivity].
    - exfalso. apply nth_error_None in Z. rewrite (rp_nlen _ _ _ _ _ HR), <- (rp_len _ _ _ _ _ HR) in Z.
      apply nth_error_None in Z. congruence.
  Qed.

  Lemma Rep_find pr n :
    exists r, find_named g pr n = Some r /\
      match r with
      | Some i => exists f qq, nth_error P i = Some (n, qq) /\ nth_error (fixes g) i = Some f /\ pr f = true
      | None => forall i f qq, nth_error P i = Some (n, qq) -> nth_error (fixes g) i = Some f -> pr f = false
      end.
  Proof.
    rewrite find_named_vec, (rp_names _ _ _ _ _ HR).
    destruct (find_id_spec g pr (idxs n P)) as [r [-> S]].
    - intros i I. apply idxs_In in I. destruct I as [qq I].
      rewrite (rp_len _ _ _ _ _ HR). apply nth_error_Some. congruence.
    - exists r. split; [reflexivity|]. destruct r as [i|].
      + destruct S as [I [f [Ef Pf]]]. apply idxs_In in I. destruct I as [qq I]. exists f, qq; auto.
      + intros i f qq I Ef. apply (S i f); [apply idxs_In; eauto | exact Ef].
  Qed.
End RepLemmas.

Lemma nbrs_notin E a p : (forall e, In e E -> v_from e <> p) -> nbrs E a p = [].
Proof.
  intros H. unfold nbrs. assert (filter (ev_at a p) E = []) as ->; [|reflexivity].
  induction E as [|e E IH]; [reflexivity|]. cbn [filter].
  unfold ev_at at 1. assert (eqb (v_from e) p = false) as ->.
  { apply eqb_false, H; left; reflexivity. }
  rewrite andb_false_r. apply IH. intros; apply H; right; assumption.
Qed.

Lemma nbrs_notin_awy E a p : (forall e, In e E -> v_awy e <> a) -> nbrs E a p = [].
Proof.
  intros H. unfold nbrs. assert (filter (ev_at a p) E = []) as ->; [|reflexivity].
  induction E as [|e E IH]; [reflexivity|]. cbn [filter].
  unfold ev_at at 1. assert (eqb (v_awy e) a = false) as ->.
  { apply eqb_false, H; left; reflexivity. }
  apply IH. intros; apply H; right; assumption.
Qed.

(** * adding a point *)
Lemma get_or_insert_fix_rep g R P A E pos n :
  Rep g R P A E ->
  exists g' i P', get_or_insert_fix_id g pos n = Some (g', i) /\
    Rep g' (R ++ [(n, pos)]) P' A E /\ nth_error P' i = Some (n, quantize pos) /\
    exists l, P' = P ++ l.
Proof.
  intros HR. unfold get_or_insert_fix_id.
  destruct (Rep_find HR (fun f => same_pos (g_pos f) pos) n) as [r [-> S]].
  assert (PI : forall p, In p P <-> In p (map key_of R)).
  { intros p. rewrite (rp_P _ _ _ _ _ HR). apply dedup_In. }
  assert (DS : dedup (map key_of (R ++ [(n, pos)])) =
     if in_dec eq_dec (n, quantize pos) (map key_of R) then P else P ++ [(n, quantize pos)]).
  { rewrite map_app. cbn [map]. unfold key_of at 2; cbn [fst snd].
    rewrite dedup_snoc, <- (rp_P _ _ _ _ _ HR). reflexivity. }
  assert (POSX : forall i f p, nth_error (fixes g) i = Some f -> nth_error P i = Some p ->
           exists l1 l2, R ++ [(n, pos)] = l1 ++ (fst p, g_pos f) :: l2 /\ quantize (g_pos f) = snd p /\
             forall r, In r l1 -> key_of r <> p).
  { intros i f p X Y. destruct (rp_pos _ _ _ _ _ HR i f p X Y) as [l1 [l2 [-> Z]]].
    exists l1, (l2 ++ [(n, pos)]). rewrite <- app_assoc. split; [reflexivity | exact Z]. }
  destruct r as [i|].
  - destruct S as [f [qq [E1 [E2 E3]]]].
    assert (qq = quantize pos) as ->.
    { unfold same_pos in E3. rewrite eqb_true in E3. destruct (Rep_point HR _ _ E2) as [p [E4 [_ E5]]].
      rewrite E1 in E4. injection E4 as <-. cbn [snd] in E5. congruence. }
    exists g, i, P. split; [reflexivity|]. split; [|split; [exact E1 | exists []; rewrite app_nil_r; reflexivity]].
    assert (I : In (n, quantize pos) P) by (eapply nth_error_In, E1).
    destruct (in_dec eq_dec (n, quantize pos) (map key_of R)) as [_|C]; [|exfalso; apply C, PI, I].
    destruct HR. constructor; auto.
  - unfold add_fix_raw. set (i := List.length (fixes g)).
    assert (NI : ~ @In apoint (n, quantize pos) P).
    { intros I. apply In_nth_error in I. destruct I as [j Ej].
      destruct (Rep_fix HR _ _ Ej) as [f Ef]. specialize (S j f _ Ej Ef).
      destruct (Rep_point HR _ _ Ef) as [p [E4 [_ E5]]]. rewrite Ej in E4; injection E4 as <-. cbn [snd] in E5.
      unfold same_pos in S. apply eqb_false in S. congruence. }
    destruct (in_dec eq_dec (n, quantize pos) (map key_of R)) as [C|_]; [exfalso; apply NI, PI, C|].
    eexists _, i, (P ++ [(n, quantize pos)]). split; [reflexivity|].
    assert (Li : i = List.length P) by (unfold i; apply (rp_len _ _ _ _ _ HR)).
    split; [|split; [rewrite Li, nth_error_app2, Nat.sub_diag by lia; reflexivity | eauto]].
    constructor; cbn [fixes fix_id_by_name fix_name_by_id airway_id_by_name airway_name_by_id].
    + symmetry; exact DS.
    + rewrite !app_length, (rp_len _ _ _ _ _ HR). reflexivity.
    + rewrite !app_length, (rp_nlen _ _ _ _ _ HR). reflexivity.
    + intros j. unfold point_of_id; cbn [fix_name_by_id fixes].
      destruct (Nat.lt_ge_cases j (List.length P)) as [L|L].
      * rewrite !nth_error_app1; [apply (rp_pts _ _ _ _ _ HR) | lia | |].
        { fold i; lia. } { rewrite (rp_nlen _ _ _ _ _ HR); lia. }
      * rewrite !nth_error_app2; [|lia | fold i; lia | rewrite (rp_nlen _ _ _ _ _ HR); lia].
        fold i. rewrite (rp_nlen _ _ _ _ _ HR), Li.
        destruct (j - List.length P) as [|d]; cbn; [reflexivity|]. destruct d; reflexivity.
    + intros j f p X Y. destruct (Nat.lt_ge_cases j (List.length P)) as [L|L].
      * rewrite nth_error_app1 in X, Y by (fold i; lia). apply (POSX j f p X Y).
      * rewrite nth_error_app2 in X, Y by (fold i; lia). fold i in X. rewrite Li in X.
        destruct (j - List.length P) as [|d]; cbn in X, Y; [|destruct d; discriminate].
        injection X as <-; injection Y as <-. cbn [g_pos fst snd].
        exists R, []. split; [reflexivity|]. split; [reflexivity|].
        intros r I Er. apply NI, PI. rewrite <- Er. apply in_map, I.
    + intros m. rewrite mget_vec_push. unfold idxs. rewrite idxs_from_snoc. cbn [fst].
      fold (idxs m P). rewrite <- !(rp_names _ _ _ _ _ HR). unfold eqb.
      destruct (eq_dec m n) as [->|NE].
      * destruct (eq_dec n n) as [_|]; [|congruence]. rewrite Nat.add_0_l, <- Li. reflexivity.
      * destruct (eq_dec n m); [congruence|]. rewrite app_nil_r. reflexivity.
    + apply (rp_awys _ _ _ _ _ HR).
    + apply (rp_awy_nd _ _ _ _ _ HR).
    + apply (rp_awy _ _ _ _ _ HR).
    + intros e I. destruct (rp_ev _ _ _ _ _ HR e I) as [I1 [I2 I3]].
      rewrite !in_app_iff. tauto.
    + intros j f k es X Y. destruct (Nat.lt_ge_cases j (List.length P)) as [L|L].
      * rewrite nth_error_app1 in X by (fold i; lia). apply (rp_some _ _ _ _ _ HR j f k es X Y).
      * rewrite nth_error_app2 in X by (fold i; lia). fold i in X. rewrite Li in X.
        destruct (j - List.length P) as [|d]; cbn in X; [|destruct d; discriminate].
        injection X as <-. discriminate.
    + intros j f p k a X Y Z. destruct (Nat.lt_ge_cases j (List.length P)) as [L|L].
      * rewrite nth_error_app1 in X, Y by (fold i; lia).
        pose proof (rp_edges _ _ _ _ _ HR j f p k a X Y Z) as F.
        eapply Forall2_impl; [|exact F]. intros e x [H1 [H2 H3]].
        repeat split; try assumption. rewrite nth_error_app1; [exact H1|].
        apply nth_error_Some. congruence.
      * rewrite nth_error_app2 in X, Y by (fold i; lia). fold i in X. rewrite Li in X.
        destruct (j - List.length P) as [|d]; cbn in X, Y; [|destruct d; discriminate].
        injection X as <-; injection Y as <-.
        rewrite nbrs_notin; [constructor|].
        intros e I Ee. destruct (rp_ev _ _ _ _ _ HR e I) as [_ [I2 _]]. rewrite Ee in I2. contradiction.
Qed.

(** * adding an airway *)
Lemma get_or_insert_awy_rep g R P A E n :
  Rep g R P A E ->
  exists g' k A', get_or_insert_airway_id g n = (g', k) /\
    Rep g' R P A' E /\ nth_error A' k = Some n /\
    A' = (if in_dec eq_dec n A then A else A ++ [n]).
Proof.
  intros HR. unfold get_or_insert_airway_id.
  destruct (get n (airway_id_by_name g)) as [k|] eqn:G.
  - exists g, k, A. apply (rp_awy _ _ _ _ _ HR) in G. split; [reflexivity|]. split; [exact HR|]. split; [exact G|].
    destruct (in_dec eq_dec n A) as [|C]; [reflexivity|]. exfalso; apply C. eapply nth_error_In, G.
  - assert (NI : ~ In n A).
    { intros I. apply In_nth_error in I. destruct I as [k Ek]. apply (rp_awy _ _ _ _ _ HR) in Ek. congruence. }
    eexists _, _, (A ++ [n]). split; [reflexivity|].
    rewrite (rp_awys _ _ _ _ _ HR).
    split; [|split; [rewrite nth_error_app2, Nat.sub_diag by lia; reflexivity |
                     destruct (in_dec eq_dec n A); [contradiction|reflexivity]]].
    constructor; cbn [fixes fix_id_by_name fix_name_by_id airway_id_by_name airway_name_by_id];
      try apply HR.
    + reflexivity.
    + apply Permutation_NoDup with (l := n :: A); [apply Permutation_cons_append|].
      constructor; [exact NI | apply HR].
    + intros m k. rewrite get_put. destruct (eq_dec m n) as [->|NE].
      * split.
        -- intros X; injection X as <-. rewrite nth_error_app2, Nat.sub_diag by lia; reflexivity.
        -- intros X. destruct (Nat.lt_ge_cases k (List.length A)) as [L|L].
           ++ rewrite nth_error_app1 in X by lia. exfalso; apply NI. eapply nth_error_In, X.
           ++ rewrite nth_error_app2 in X by lia. destruct (k - List.length A) as [|d] eqn:D;
                [f_equal; lia | destruct d; discriminate].
      * rewrite (rp_awy _ _ _ _ _ HR). destruct (Nat.lt_ge_cases k (List.length A)) as [L|L].
        -- rewrite nth_error_app1 by lia. reflexivity.
        -- rewrite nth_error_app2 by lia. split.
           ++ intros X. exfalso. apply nth_error_None in L. congruence.
           ++ intros X. exfalso. destruct (k - List.length A) as [|d]; [cbn in X; congruence | destruct d; discriminate].
    + intros e I. destruct (rp_ev _ _ _ _ _ HR e I) as [I1 I2]. rewrite in_app_iff. tauto.
    + intros i f k es X Y. destruct (rp_some _ _ _ _ _ HR i f k es X Y) as [Z1 Z2].
      split; [exact Z1|]. rewrite app_length. lia.
    + intros i f p k a X Y Z. destruct (Nat.lt_ge_cases k (List.length A)) as [L|L].
      * rewrite nth_error_app1 in Z by lia. apply (rp_edges _ _ _ _ _ HR i f p k a X Y Z).
      * rewrite nth_error_app2 in Z by lia.
        destruct (k - List.length A) as [|d]; cbn in Z; [|destruct d; discriminate].
        injection Z as <-. rewrite nbrs_notin_awy.
        2:{ intros e I Ee. destruct (rp_ev _ _ _ _ _ HR e I) as [I1 _]. congruence. }
        unfold edges_at. destruct (get k (g_edges f)) as [es|] eqn:G2; [|constructor].
        destruct (rp_some _ _ _ _ _ HR i f k es X G2). lia.
Qed.

(** * inserting one directed edge *)
Lemma filter_snoc {T} (f : T -> bool) l x : filter f (l ++ [x]) = filter f l ++ (if f x then [x] else []).
Proof. rewrite filter_app. cbn. destruct (f x); reflexivity. Qed.

Lemma existsb_snoc {T} (f : T -> bool) l x : existsb f (l ++ [x]) = existsb f l || f x.
Proof. rewrite existsb_app. cbn. rewrite orb_false_r. reflexivity. Qed.

Lemma flat_map_snoc {T U} (f : T -> list U) l x : flat_map f (l ++ [x]) = flat_map f l ++ f x.
Proof. rewrite flat_map_app. cbn. rewrite app_nil_r. reflexivity. Qed.

Lemma nbrs_snoc E e a p :
  nbrs (E ++ [e]) a p =
  if ev_at a p e then (if in_dec eq_dec (v_to e) (nbrs E a p) then nbrs E a p else nbrs E a p ++ [v_to e])
  else nbrs E a p.
Proof.
  unfold nbrs. rewrite filter_snoc. destruct (ev_at a p e).
  - rewrite map_app. cbn [map]. rewrite dedup_snoc.
    destruct (in_dec eq_dec (v_to e) (map v_to (filter (ev_at a p) E))) as [I|NI];
      destruct (in_dec eq_dec (v_to e) (dedup (map v_to (filter (ev_at a p) E)))) as [J|NJ];
      try reflexivity; rewrite dedup_In in *; contradiction.
  - rewrite app_nil_r. reflexivity.
Qed.

Lemma edge_ok_other P E ev0 a p e x :
  ev_is a p x ev0 = false -> edge_ok P E a p e x -> edge_ok P (E ++ [ev0]) a p e x.
Proof.
  intros F [H1 [H2 H3]]. repeat split; [exact H1 | |].
  - unfold evalid. rewrite existsb_snoc, F. cbn. rewrite orb_false_r. exact H2.
  - unfold elev. rewrite flat_map_snoc, F, app_nil_r. exact H3.
Qed.

Lemma evalid_notin E a p x : ~ In x (nbrs E a p) -> evalid E a p x = false /\ elev E a p x = [].
Proof.
  intros NI.
  assert (F : forall e, In e E -> ev_is a p x e = false).
  { intros e I. unfold ev_is. destruct (ev_at a p e) eqn:EA; [|reflexivity]. cbn.
    apply eqb_false. intros Ex. apply NI. unfold nbrs. rewrite dedup_In, in_map_iff.
    exists e. split; [exact Ex|]. apply filter_In; auto. }
  split.
  - unfold evalid. apply not_true_is_false. intros T. apply existsb_exists in T.
    destruct T as [e [I T]]. rewrite (F e I) in T. discriminate.
  - unfold elev. clear NI. induction E as [|e E IH]; [reflexivity|]. cbn [flat_map].
    rewrite (F e (or_introl eq_refl)). cbn. apply IH. intros; apply F; right; assumption.
Qed.

Lemma upsert_rep P E a p n x es :
  NoDup P -> nth_error P (e_to n) = Some x ->
  Forall2 (edge_ok P E a p) es (nbrs E a p) ->
  let ev0 := mkEv a p x (e_valid n) (e_min n) in
  Forall2 (edge_ok P (E ++ [ev0]) a p) (upsert_edge n es) (nbrs (E ++ [ev0]) a p).
Proof.
  intros ND Hx F ev0.
  assert (IS : forall y, ev_is a p y ev0 = eqb x y).
  { intros y. unfold ev_is, ev_at, ev0; cbn. rewrite !eqb_refl. reflexivity. }
  rewrite nbrs_snoc. replace (ev_at a p ev0) with true by (unfold ev_at, ev0; cbn; rewrite !eqb_refl; reflexivity).
  change (v_to ev0) with x.
  assert (NDn : NoDup (nbrs E a p)) by apply dedup_NoDup.
  assert (OK : forall e y, edge_ok P E a p e y -> e_to e = e_to n <-> y = x).
  { intros e y [H1 _]. split; intros Q.
    - rewrite Q in H1. congruence.
    - subst y. apply (proj1 (NoDup_nth_error P) ND); [apply nth_error_Some; congruence | congruence]. }
  assert (UPD : forall e, edge_ok P E a p e x -> edge_ok P (E ++ [ev0]) a p (update_edge e n) x).
  { intros e [H1 [H2 H3]]. unfold update_edge. repeat split; cbn [e_to e_valid e_min].
    - exact H1.
    - unfold evalid. rewrite existsb_snoc, IS, eqb_refl. cbn. rewrite H2. reflexivity.
    - unfold elev. rewrite flat_map_snoc, IS, eqb_refl. cbn [v_min ev0]. apply least_snoc, H3. }
  assert (OTH : forall es ys, Forall2 (edge_ok P E a p) es ys -> ~ In x ys ->
            Forall2 (edge_ok P (E ++ [ev0]) a p) es ys).
  { intros es0 ys F0. induction F0 as [|e y es0 ys H0 F0 IH]; intros NI; constructor.
    - apply edge_ok_other; [|exact H0]. rewrite IS. apply eqb_false. intros ->; apply NI; left; reflexivity.
    - apply IH. intros I; apply NI; right; exact I. }
  destruct (in_dec eq_dec x (nbrs E a p)) as [I|NI].
  - revert F NDn I. generalize (nbrs E a p) as ys. clear - OK UPD OTH IS. intros ys F.
    induction F as [|e y es ys H0 F IH]; intros NDn I; [destruct I|].
    inversion NDn as [|? ? nI ND']; subst. cbn [upsert_edge].
    destruct (Nat.eqb_spec (e_to e) (e_to n)) as [Q|Q].
    + apply (OK e y H0) in Q. subst y. constructor; [apply UPD, H0 | apply OTH; assumption].
    + assert (y <> x) by (intros Z; apply Q, (OK e y H0), Z).
      constructor.
      * apply edge_ok_other; [rewrite IS; apply eqb_false; congruence | exact H0].
      * apply IH; [exact ND'|]. destruct I; [congruence | assumption].
  - assert (U : upsert_edge n es = es ++ [n]).
    { revert F NI. generalize (nbrs E a p) as ys. clear - OK. intros ys F.
      induction F as [|e y es ys H0 F IH]; intros NI; [reflexivity|]. cbn [upsert_edge app].
      destruct (Nat.eqb_spec (e_to e) (e_to n)) as [Q|Q].
      - exfalso. apply NI. left. apply (OK e y H0), Q.
      - f_equal. apply IH. intros I; apply NI; right; exact I. }
    rewrite U. apply Forall2_app; [apply OTH; assumption|].
    destruct (evalid_notin E a p x NI) as [V L].
    constructor; [|constructor]. repeat split; [exact Hx | |].
    + unfold evalid in *. rewrite existsb_snoc, V, IS, eqb_refl. reflexivity.
    + unfold elev in *. rewrite flat_map_snoc, L, IS, eqb_refl. cbn [v_min ev0 app].
      destruct (e_min n) as [m|]; cbn; [split; [left; reflexivity|]; intros y [->|[]]; lia | reflexivity].
Qed.

Lemma nth_error_update_nth {T} i (f : T -> T) l j :
  nth_error (update_nth i f l) j =
  if Nat.eqb i j then option_map f (nth_error l j) else nth_error l j.
Proof.
  revert i j; induction l as [|x l IH]; intros i j.
  - cbn. destruct i, j; cbn; try reflexivity. destruct (Nat.eqb i j); reflexivity.
  - destruct i as [|i], j as [|j]; cbn; try reflexivity. apply IH.
Qed.

Lemma update_nth_length {T} i (f : T -> T) l : List.length (update_nth i f l) = List.length l.
Proof. revert i; induction l as [|x l IH]; intros [|i]; cbn; auto. Qed.

Lemma upsert_nonnil n es : upsert_edge n es <> [].
Proof. destruct es as [|e es]; cbn; [discriminate|]. destruct (Nat.eqb _ _); discriminate. Qed.

Lemma insert_edge_rep g R P A E i k n p x a :
  Rep g R P A E -> nth_error P i = Some p -> nth_error P (e_to n) = Some x -> nth_error A k = Some a ->
  exists g', insert_or_update_edge g i k n = Some g' /\
    Rep g' R P A (E ++ [mkEv a p x (e_valid n) (e_min n)]).
Proof.
  intros HR Hi Hx Hk. unfold insert_or_update_edge, fix_at.
  destruct (Rep_fix HR _ _ Hi) as [fi Ei]. rewrite Ei.
  eexists; split; [reflexivity|].
  set (ev0 := mkEv a p x (e_valid n) (e_min n)).
  set (F := fun f => mkGfix (g_pos f) (put k (upsert_edge n match get k (g_edges f) with Some es => es | None => [] end) (g_edges f))).
  assert (NF : forall j, nth_error (update_nth i F (fixes g)) j =
     if Nat.eqb i j then option_map F (nth_error (fixes g) j) else nth_error (fixes g) j)
    by (intros; apply nth_error_update_nth).
  constructor; cbn [fixes fix_id_by_name fix_name_by_id airway_id_by_name airway_name_by_id];
    try apply HR.
  - rewrite update_nth_length. apply HR.
  - intros j. unfold point_of_id; cbn [fix_name_by_id fixes]. rewrite NF.
    pose proof (rp_pts _ _ _ _ _ HR j) as Y. unfold point_of_id in Y.
    destruct (Nat.eqb i j); [|exact Y]. destruct (nth_error (fix_name_by_id g) j); [|exact Y].
    destruct (nth_error (fixes g) j); exact Y.
  - intros j f p' X Y. rewrite NF in X. destruct (Nat.eqb i j).
    + destruct (nth_error (fixes g) j) as [f0|] eqn:Ej; [|discriminate]. injection X as <-. cbn [g_pos F].
      apply (rp_pos _ _ _ _ _ HR j f0 p' Ej Y).
    + apply (rp_pos _ _ _ _ _ HR j f p' X Y).
  - intros e I. rewrite in_app_iff in I. destruct I as [I|[<-|[]]]; [apply (rp_ev _ _ _ _ _ HR e I)|].
    cbn. repeat split; [eapply nth_error_In, Hk | eapply nth_error_In, Hi | eapply nth_error_In, Hx].
  - intros j f k' es X Y. rewrite NF in X. destruct (Nat.eqb i j).
    + destruct (nth_error (fixes g) j) as [f0|] eqn:Ej; [|discriminate]. injection X as <-. cbn [g_edges F] in Y.
      rewrite get_put in Y. destruct (eq_dec k' k) as [->|NE].
      * injection Y as <-. split; [apply upsert_nonnil|]. apply nth_error_Some. congruence.
      * apply (rp_some _ _ _ _ _ HR j f0 k' es Ej Y).
    + apply (rp_some _ _ _ _ _ HR j f k' es X Y).
  - intros j f p' k' a' X Y Z. rewrite NF in X. destruct (Nat.eqb_spec i j) as [<-|NEij].
    + destruct (nth_error (fixes g) i) as [f0|] eqn:Ej; [|discriminate]. injection X as <-.
      assert (p' = p) as -> by congruence.
      unfold edges_at. cbn [g_edges F]. rewrite get_put. destruct (eq_dec k' k) as [->|NE].
      * assert (a' = a) as -> by congruence. fold (edges_at f0 k).
        apply upsert_rep; [apply (Rep_NoDup HR) | exact Hx |].
        apply (rp_edges _ _ _ _ _ HR i f0 p k a Ej Y Z).
      * assert (a' <> a).
        { intros ->. apply NE. apply (proj1 (NoDup_nth_error A) (rp_awy_nd _ _ _ _ _ HR));
            [apply nth_error_Some; congruence | congruence]. }
        fold (edges_at f0 k').
        assert (ev_at a' p ev0 = false).
        { unfold ev_at, ev0; cbn. assert (eqb a a' = false) as -> by (apply eqb_false; congruence). reflexivity. }
        rewrite nbrs_snoc, H0.
        eapply Forall2_impl; [|apply (rp_edges _ _ _ _ _ HR i f0 p k' a' Ej Y Z)].
        intros e y Q. apply edge_ok_other; [|exact Q]. unfold ev_is. rewrite H0. reflexivity.
    + assert (p' <> p).
      { intros ->. apply NEij. apply (proj1 (NoDup_nth_error P) (Rep_NoDup HR));
          [apply nth_error_Some; congruence | congruence]. }
      assert (ev_at a' p' ev0 = false).
      { unfold ev_at, ev0; cbn. assert (eqb p p' = false) as -> by (apply eqb_false; congruence). apply andb_false_r. }
      rewrite nbrs_snoc, H0.
      eapply Forall2_impl; [|apply (rp_edges _ _ _ _ _ HR j f p' k' a' X Y Z)].
      intros e y Q. apply edge_ok_other; [|exact Q]. unfold ev_is. rewrite H0. reflexivity.
Qed.

(** * inserting a segment *)
Lemma nth_error_ext {T} (l l' : list T) i x : nth_error l i = Some x -> nth_error (l ++ l') i = Some x.
Proof.
  intros E. rewrite nth_error_app1; [exact E|]. apply nth_error_Some; congruence.
Qed.

Lemma insert_seg_rep g R P A E s :
  Rep g R P A E ->
  exists g' P', insert_seg g s = Some g' /\
    Rep g' (R ++ [(s_from s, s_from_pos s); (s_to s, s_to_pos s)]) P'
        (if in_dec eq_dec (s_awy s) A then A else A ++ [s_awy s]) (E ++ evs_of s).
Proof.
  intros HR. unfold insert_seg, insert_segment; cbn [af_pos af_name af_valid af_min].
  destruct (get_or_insert_fix_rep _ _ _ _ _ (s_from_pos s) (s_from s) HR) as [g1 [i [P1 [-> [HR1 [Ei [l1 ->]]]]]]].
  destruct (get_or_insert_fix_rep _ _ _ _ _ (s_to_pos s) (s_to s) HR1) as [g2 [j [P2 [-> [HR2 [Ej [l2 ->]]]]]]].
  destruct (get_or_insert_awy_rep _ _ _ _ _ (s_awy s) HR2) as [g3 [k [A' [-> [HR3 [Ek ->]]]]]].
  apply (nth_error_ext _ l2) in Ei.
  destruct (insert_edge_rep _ _ _ _ _ i k (mkEdge j (s_valid s) (s_min s) None (s_type s)) _ _ _ HR3 Ei Ej Ek)
    as [g4 [-> HR4]].
  destruct (insert_edge_rep _ _ _ _ _ j k (mkEdge i false (s_min s) None (s_type s)) _ _ _ HR4 Ej Ei Ek)
    as [g5 [-> HR5]].
  cbn [e_valid e_min] in HR5.
  exists g5, ((P ++ l1) ++ l2). split; [reflexivity|].
  rewrite <- !app_assoc in HR5. cbn [app] in HR5. rewrite <- app_assoc. exact HR5.
Qed.

Definition all_events (h : list segment) : list ev := flat_map evs_of h.

Lemma map_key_raw h : map key_of (raw_points h) = flat_map (fun s => [seg_from s; seg_to s]) h.
Proof.
  unfold raw_points. induction h as [|s h IH]; [reflexivity|]. cbn. rewrite IH. reflexivity.
Qed.

Lemma insert_all_snoc g h s :
  insert_all g (h ++ [s]) = match insert_all g h with Some g' => insert_seg g' s | None => None end.
Proof.
  revert g; induction h as [|x h IH]; intros g; cbn.
  - destruct (insert_seg g s); reflexivity.
  - destruct (insert_seg g x) as [g'|]; [apply IH | reflexivity].
Qed.

Lemma insert_all_rep h :
  exists g, insert_all empty_graph h = Some g /\
    Rep g (raw_points h) (points h) (airways h) (all_events h).
Proof.
  induction h as [|s h IH] using rev_ind.
  - exists empty_graph. split; [reflexivity | apply Rep_empty].
  - destruct IH as [g [Eg HR]]. rewrite insert_all_snoc, Eg.
    destruct (insert_seg_rep _ _ _ _ _ s HR) as [g' [P' [-> HR']]].
    exists g'. split; [reflexivity|].
    assert (A1 : airways (h ++ [s]) = if in_dec eq_dec (s_awy s) (airways h) then airways h else airways h ++ [s_awy s]).
    { unfold airways. rewrite map_app. cbn [map]. rewrite dedup_snoc.
      destruct (in_dec eq_dec (s_awy s) (map s_awy h)) as [I|NI];
        destruct (in_dec eq_dec (s_awy s) (dedup (map s_awy h))) as [J|NJ]; try reflexivity;
        rewrite dedup_In in *; contradiction. }
    assert (A2 : raw_points (h ++ [s]) = raw_points h ++ [(s_from s, s_from_pos s); (s_to s, s_to_pos s)])
      by (unfold raw_points; rewrite flat_map_snoc; reflexivity).
    assert (A3 : all_events (h ++ [s]) = all_events h ++ evs_of s)
      by (unfold all_events; rewrite flat_map_snoc; reflexivity).
    rewrite A1, A2, A3. pose proof (rp_P _ _ _ _ _ HR') as EP.
    assert (A4 : points (h ++ [s]) = P').
    { rewrite EP. unfold points. rewrite <- map_key_raw, A2. reflexivity. }
    rewrite A4. exact HR'.
Qed.

(** * events versus the specification over segments *)
Lemma nbrs_neighbours h a p : nbrs (all_events h) a p = neighbours h a p.
Proof.
  unfold nbrs, neighbours, all_events. f_equal. induction h as [|s h IH]; [reflexivity|].
  cbn [flat_map]. rewrite filter_app, map_app, IH. f_equal.
  unfold evs_of, linked. cbn [filter]. unfold ev_at; cbn [v_awy v_from].
  destruct (eqb (s_awy s) a); cbn [andb]; [|reflexivity].
  destruct (eqb (seg_from s) p), (eqb (seg_to s) p); reflexivity.
Qed.

Lemma evalid_may_fly h a p x : evalid (all_events h) a p x = may_fly h a p x.
Proof.
  unfold evalid, may_fly, all_events. induction h as [|s h IH]; [reflexivity|].
  cbn [flat_map existsb]. rewrite existsb_app, IH. f_equal.
  unfold evs_of. cbn [existsb]. unfold ev_is, ev_at; cbn [v_awy v_from v_to v_ok].
  rewrite !andb_false_r, !orb_false_r. reflexivity.
Qed.

Lemma elev_levels h a p x l : In l (elev (all_events h) a p x) <-> In l (levels h a p x).
Proof.
  unfold elev, levels, all_events. induction h as [|s h IH]; [reflexivity|].
  cbn [flat_map]. rewrite flat_map_app, !in_app_iff, IH. apply or_iff_compat_r.
  unfold evs_of, joins. cbn [flat_map]. unfold ev_is, ev_at; cbn [v_awy v_from v_to v_min].
  rewrite app_nil_r, in_app_iff.
  destruct (eqb (s_awy s) a); cbn [andb]; [|cbn; tauto].
  destruct (eqb (seg_from s) p), (eqb (seg_to s) x), (eqb (seg_to s) p), (eqb (seg_from s) x); cbn [andb orb In]; tauto.
Qed.

(** * Well-formedness of the graph (C11) and edge attributes (C12) *)
Lemma graph_edges_spec h g :
  insert_all empty_graph h = Some g ->
  forall i f p k a, nth_error (fixes g) i = Some f -> point_of_id g i = Some p ->
    nth_error (airway_name_by_id g) k = Some a ->
    Forall2 (fun e x => point_of_id g (e_to e) = Some x /\ e_valid e = may_fly h a p x
                        /\ least (levels h a p x) (e_min e))
            (edges_at f k) (neighbours h a p).
Proof.
  intros Eg i f p k a Hf Hp Ha.
  destruct (insert_all_rep h) as [g' [E' HR]]. rewrite Eg in E'; injection E' as <-.
  rewrite (rp_pts _ _ _ _ _ HR) in Hp. rewrite (rp_awys _ _ _ _ _ HR) in Ha.
  rewrite <- nbrs_neighbours.
  eapply Forall2_impl; [|apply (rp_edges _ _ _ _ _ HR i f p k a Hf Hp Ha)].
  intros e x [H1 [H2 H3]]. rewrite (rp_pts _ _ _ _ _ HR). split; [exact H1|].
  rewrite <- evalid_may_fly. split; [exact H2|].
  eapply least_ext; [|exact H3]. intros l; apply elev_levels.
Qed.
