(** Proofs about writing isec.txt: the order of the lines and the round trip. *)
From Coq Require Import Reals Lra Sorted Permutation ZifyBool ZifyN ZifyNat.
From Flocq Require Import Core BinarySingleNaN.
From Verif Require Import Base Float FloatParse Num Dms DmsReal SpecDms Fixed Peg Locations SpecText TextProofs Isec SpecIsec SpecIsecWrite IsecProofs.

(** ** Sorting *)
Lemma text_leb_total a : forall b, text_leb a b = false -> text_leb b a = true.
Proof.
  induction a as [|x a IH]; intros [|y b] H; cbn in *; try discriminate; try reflexivity.
  destruct (x <? y)%N eqn:E; [discriminate|]. destruct (y <? x)%N eqn:E'; [reflexivity | apply IH, H].
Qed.
Lemma text_leb_antisym a : forall b, text_leb a b = true -> text_leb b a = true -> a = b.
Proof.
  induction a as [|x a IH]; intros [|y b] H H'; cbn in *; try discriminate; try reflexivity.
  destruct (x <? y)%N eqn:E, (y <? x)%N eqn:E'; try discriminate; [lia|]. assert (x = y) as -> by lia. f_equal. apply IH; assumption.
Qed.
Lemma text_leb_trans a : forall b c, text_leb a b = true -> text_leb b c = true -> text_leb a c = true.
Proof.
  induction a as [|x a IH]; intros [|y b] [|z c] H H'; cbn in *; try discriminate; try reflexivity.
  destruct (x <? y)%N eqn:E1, (y <? x)%N eqn:E2, (y <? z)%N eqn:E3, (z <? y)%N eqn:E4; try discriminate; try lia;
    destruct (x <? z)%N eqn:E5, (z <? x)%N eqn:E6; try reflexivity; try lia. eapply IH; eassumption.
Qed.
Lemma text_leb_refl a : text_leb a a = true.
Proof. induction a as [|x a IH]; [reflexivity|]. cbn. rewrite N.ltb_irrefl. exact IH. Qed.

Section Sorting.
  Context {A : Type}.
  Implicit Types (x y : text * A) (l : list (text * A)).
  Definition le_key x y : Prop := text_leb (fst x) (fst y) = true.
  Definition at_key (k : text) l := filter (fun kv => eqb k (fst kv)) l.
  Lemma insert_In x y l : In y (insert_sorted x l) <-> y = x \/ In y l.
  Proof.
    induction l as [|z l IH]; cbn [insert_sorted In]; [intuition congruence|].
    destruct (text_leb (fst x) (fst z)); cbn [In]; [intuition congruence|]. rewrite IH. intuition congruence.
  Qed.
  Lemma insert_ok x l : StronglySorted le_key l -> StronglySorted le_key (insert_sorted x l).
  Proof.
    induction 1 as [|y l S IH F]; cbn [insert_sorted]; [repeat constructor|].
    destruct (text_leb (fst x) (fst y)) eqn:E.
    - constructor; [constructor; assumption|]. constructor; [exact E|]. eapply Forall_impl; [|exact F]. intros z Z. eapply text_leb_trans; eassumption.
    - constructor; [exact IH|]. apply Forall_forall. intros z Z. apply insert_In in Z. destruct Z as [->|Z]; [apply text_leb_total, E|].
      rewrite Forall_forall in F. apply F, Z.
  Qed.
  Lemma sort_sorted l : StronglySorted le_key (sort_by_key l).
  Proof. induction l as [|x l IH]; [constructor|]. apply insert_ok, IH. Qed.
  Lemma insert_key k x l : at_key k (insert_sorted x l) = at_key k (x :: l).
  Proof.
    induction l as [|y l IH]; [reflexivity|]. cbn [insert_sorted]. destruct (text_leb (fst x) (fst y)) eqn:E; [reflexivity|].
    unfold at_key in *. cbn [filter] in *. rewrite IH. destruct (eqb k (fst x)) eqn:X, (eqb k (fst y)) eqn:Y; try reflexivity.
    rewrite eqb_true in X, Y. rewrite <- X, <- Y, text_leb_refl in E. discriminate.
  Qed.
  Lemma sort_key k l : at_key k (sort_by_key l) = at_key k l.
  Proof.
    induction l as [|x l IH]; [reflexivity|]. cbn [sort_by_key fold_right]. fold (sort_by_key l). rewrite insert_key.
    unfold at_key in *. cbn [filter]. rewrite IH. reflexivity.
  Qed.
  Lemma at_key_In k x l : In x (at_key k l) -> In x l.
  Proof. intros H. apply filter_In in H. tauto. Qed.
  Lemma sorted_unique l : StronglySorted le_key l -> forall l', StronglySorted le_key l' -> (forall k, at_key k l = at_key k l') -> l = l'.
  Proof.
    assert (K : forall x l0, In x l0 -> In x (at_key (fst x) l0)) by (intros x l0 H; apply filter_In; rewrite eqb_refl; auto).
    induction 1 as [|x l S IH F]; intros l' S' H.
    - destruct l' as [|y l']; [reflexivity|]. specialize (H (fst y)). pose proof (K y (y :: l') (or_introl eq_refl)) as I. rewrite <- H in I. destruct I.
    - destruct l' as [|y l'].
      { specialize (H (fst x)). pose proof (K x (x :: l) (or_introl eq_refl)) as I. rewrite H in I. destruct I. }
      inversion S' as [|? ? S2 F2]; subst. rewrite Forall_forall in F, F2.
      assert (L1 : le_key x y).
      { pose proof (K y (y :: l') (or_introl eq_refl)) as I. rewrite <- H in I. apply at_key_In in I. destruct I as [->|I]; [apply text_leb_refl | apply F, I]. }
      assert (L2 : le_key y x).
      { pose proof (K x (x :: l) (or_introl eq_refl)) as I. rewrite H in I. apply at_key_In in I. destruct I as [->|I]; [apply text_leb_refl | apply F2, I]. }
      pose proof (text_leb_antisym _ _ L1 L2) as E.
      assert (X : x = y).
      { specialize (H (fst x)). unfold at_key in H. cbn [filter] in H. rewrite eqb_refl, E, eqb_refl in H. injection H as H _. exact H. }
      subst y. f_equal. apply IH; [exact S2|]. intros k. specialize (H k). unfold at_key in *. cbn [filter] in H.
      destruct (eqb k (fst x)); [injection H as H|]; exact H.
  Qed.
  Lemma flat_key k (it : list (text * list A)) : NoDup (keys it) -> at_key k (flat_iter it) = map (fun v => (k, v)) (mget_vec k it).
  Proof.
    unfold at_key, flat_iter. induction it as [|[k' vs] it IH]; intros ND; [reflexivity|]. inversion ND as [|? ? NI ND']; subst. specialize (IH ND').
    cbn [flat_map fst snd]. rewrite filter_app, IH. unfold mget_vec. cbn [get]. destruct (eq_dec k k') as [->|N].
    - assert (G : get k' it = None) by (apply get_None; exact NI). rewrite G. cbn [map]. rewrite app_nil_r.
      clear. induction vs as [|v vs IH]; [reflexivity|]. cbn [map filter fst]. rewrite eqb_refl, IH. reflexivity.
    - replace (filter (fun kv => eqb k (fst kv)) (map (fun v => (k', v)) vs)) with (@nil (text * A)); [reflexivity|].
      symmetry. clear - N. induction vs as [|v vs IH]; [reflexivity|]. cbn [map filter fst]. apply eqb_false in N. rewrite N. exact IH.
  Qed.
  (** The lines come in the same order for every iteration order. *)
  Lemma sort_same (it it' : list (text * list A)) : NoDup (keys it) -> NoDup (keys it') -> (forall k, mget_vec k it = mget_vec k it') ->
    sort_by_key (flat_iter it) = sort_by_key (flat_iter it').
  Proof.
    intros N N' H. apply sorted_unique; try apply sort_sorted. intros k. rewrite !sort_key, !flat_key, H by assumption. reflexivity.
  Qed.
End Sorting.

(** ** Lines *)
Lemma pad_sep w s : decimal s -> separated ([9]%N ++ repeat 32%N (w - List.length s)) s.
Proof.
  intros D. split; [constructor; [reflexivity|]; apply Forall_forall; intros c C; apply repeat_spec in C; subst c; reflexivity|]. left. discriminate.
Qed.
Lemma isec_line_entry d y x : name d -> decimal y -> decimal x ->
  entry_line (d ++ [9]%N ++ pad_left 32 10 y ++ [9]%N ++ pad_left 32 11 x ++ [9]%N ++ s2t "15") (mkEntry d y x).
Proof.
  intros N Y X. unfold pad_left.
  replace (d ++ [9]%N ++ (repeat 32%N (10 - List.length y) ++ y) ++ [9]%N ++ (repeat 32%N (11 - List.length x) ++ x) ++ [9]%N ++ s2t "15")
    with ([] ++ d ++ ([9]%N ++ repeat 32%N (10 - List.length y)) ++ y ++ ([9]%N ++ repeat 32%N (11 - List.length x)) ++ x ++ [9]%N ++ s2t "15" ++ [])
    by (cbn [app]; rewrite <- !app_assoc, ?app_nil_r; reflexivity).
  constructor; try assumption; try apply pad_sep; try assumption; try discriminate; [constructor | repeat constructor | apply void_blank; constructor].
Qed.

Lemma line_round f : name (f_des f) -> moderate f -> exists c e f',
  isec_line_fmt f = Some (c ++ [10]%N) /\ entry_line c e /\ e_des e = f_des f /\ entry_fix e f' /\ near f f' /\ isec_line_fmt f' = Some (c ++ [10]%N).
Proof.
  intros N [FY [FX [LY LX]]]. destruct (fixed6 _ FY LY) as [n [y [E1 [P1 [_ [_ [C1 W1]]]]]]]. destruct (fixed6 _ FX LX) as [m [x [E2 [P2 [_ [_ [C2 W2]]]]]]].
  set (ty := fixed_text _ 6 n) in *. set (tx := fixed_text _ 6 m) in *.
  assert (DY : decimal ty) by apply fixed_decimal. assert (DX : decimal tx) by apply fixed_decimal.
  exists (f_des f ++ [9]%N ++ pad_left 32 10 ty ++ [9]%N ++ pad_left 32 11 tx ++ [9]%N ++ s2t "15"), (mkEntry (f_des f) ty tx), (mkFix (f_des f) (x, y)).
  unfold isec_line_fmt. cbn [f_des f_pos py px fst snd]. fold (py (f_pos f)) (px (f_pos f)). rewrite E1, E2, W1, W2.
  split; [rewrite <- !app_assoc; reflexivity|]. split; [apply isec_line_entry; assumption|]. split; [reflexivity|].
  split; [|split; [|rewrite <- !app_assoc; reflexivity]].
  - split; [reflexivity|]. split; assumption.
  - split; [reflexivity|]. split; assumption.
Qed.
Lemma lines_round l : Forall (fun kf => f_des (snd kf) = fst kf /\ name (fst kf) /\ moderate (snd kf)) l -> exists t es l',
  isec_fmt_lines l = Some t /\ isec_file t es /\ Forall2 (fun e (kf : text * fix_) => entry_fix e (snd kf)) es l' /\
  Forall2 (fun (kf kf' : text * fix_) => fst kf' = fst kf /\ f_des (snd kf') = fst kf' /\ near (snd kf) (snd kf')) l l' /\ isec_fmt_lines l' = Some t.
Proof.
  induction 1 as [|[k f] l [E [N M]] F [t [es [l' [EL [IF [F1 [F2 EL']]]]]]]].
  - exists [], [], []. split; [reflexivity|]. split; [apply file_end, void_blank; constructor|]. split; [constructor|]. split; [constructor | reflexivity].
  - cbn [fst snd] in *. subst k. destruct (line_round f N M) as [c [e [f' [W [EN [ED [EF [NR W']]]]]]]].
    exists ((c ++ [10]%N) ++ t), (e :: es), ((f_des f, f') :: l'). cbn [isec_fmt_lines]. rewrite W, W', EL, EL'.
    split; [reflexivity|]. split; [rewrite <- app_assoc; apply file_entry; [exact EN | constructor | exact IF]|].
    split; [constructor; assumption|]. split; [|reflexivity]. constructor; [|exact F2]. cbn [fst snd]. destruct NR as [ND NR]. repeat split; auto; apply NR.
Qed.
Lemma Forall2_pairs es l : Forall2 (fun e (kf : text * fix_) => entry_fix e (snd kf)) es l -> Forall (fun kf : text * fix_ => f_des (snd kf) = fst kf) l -> fix_pairs es l.
Proof. induction 1 as [|e [k f] es l E F IH]; intros H; [constructor|].
  inversion H as [|? ? H1 H2]; subst. cbn [fst snd] in *. constructor; [|exact (IH H2)]. cbn [fst snd]. split; [|exact E]. destruct E. congruence. Qed.
Lemma fix_pairs_det es : forall l l', fix_pairs es l -> fix_pairs es l' -> l = l'.
Proof.
  intros l l' H. revert l'. induction H as [|e [k f] es l [E [E1 [E2 E3]]] F IH]; intros l' H'; inversion H' as [|? [k' f'] ? ? [E' [E1' [E2' E3']]] F']; subst; [reflexivity|].
  f_equal; [|apply IH; assumption]. cbn [fst snd] in *. subst k k'. f_equal. rewrite E2 in E2'. rewrite E3 in E3'. injection E2' as E2'. injection E3' as E3'.
  destruct f as [d [x y]], f' as [d' [x' y']]. cbn [f_des f_pos py px fst snd] in *. congruence.
Qed.
Lemma near_values k l l' : Forall2 (fun (kf kf' : text * fix_) => fst kf' = fst kf /\ f_des (snd kf') = fst kf' /\ near (snd kf) (snd kf')) l l' ->
  Forall2 near (values_of k l) (values_of k l').
Proof.
  unfold values_of. induction 1 as [|[k1 f] [k2 f'] l l' [E [_ N]] F IH]; [constructor|]. cbn [fst snd] in *. subst k2. cbn [filter fst].
  destruct (eqb k k1); [constructor; assumption | exact IH].
Qed.
Lemma values_map k (l : list fix_) : values_of k (map (fun v => (k, v)) l) = l.
Proof. unfold values_of. induction l as [|v l IH]; [reflexivity|]. cbn [map filter fst]. rewrite eqb_refl. cbn [map snd]. rewrite IH. reflexivity. Qed.
Lemma values_sorted k (it : isec_map) : NoDup (keys it) -> values_of k (sort_by_key (flat_iter it)) = mget_vec k it.
Proof.
  intros N. unfold values_of. fold (at_key k (sort_by_key (flat_iter it))). rewrite sort_key, flat_key by exact N.
  rewrite map_map. cbn [snd]. apply map_id.
Qed.
Lemma sorted_keys l l' : Forall2 (fun (kf kf' : text * fix_) => fst kf' = fst kf /\ f_des (snd kf') = fst kf' /\ near (snd kf) (snd kf')) l l' ->
  StronglySorted le_key l -> StronglySorted le_key l'.
Proof.
  induction 1 as [|x x' l l' [E _] F IH]; intros S; inversion S as [|? ? S' G]; subst; constructor; [apply IH, S'|].
  clear - E F G. induction F as [|y y' l l' [E' _] F IH]; inversion G; subst; constructor; [unfold le_key in *; rewrite E, E'; assumption | apply IH; assumption].
Qed.
Lemma mget_Permutation {V} k (m m' : list (text * list V)) : NoDup (keys m) -> Permutation m' m -> mget_vec k m' = mget_vec k m.
Proof. intros N P. unfold mget_vec. rewrite (get_perm k m m' N) by (apply Permutation_sym, P). reflexivity. Qed.
Lemma round_trip (it : isec_map) : NoDup (keys it) ->
  (forall k fs f, In (k, fs) it -> In f fs -> f_des f = k /\ name k /\ moderate f) -> (exists k fs f, In (k, fs) it /\ In f fs) ->
  exists t m, isec_fmt it = Some t /\ parse_isec_txt t = Ret m /\ NoDup (keys m) /\ (forall k, Forall2 near (mget_vec k it) (mget_vec k m)) /\
    forall it', Permutation it' m -> isec_fmt it' = Some t.
Proof.
  intros ND H [k0 [fs0 [f0 [I0 J0]]]]. set (l := sort_by_key (flat_iter it)).
  assert (IN : forall kf, In kf l <-> In kf (flat_iter it)).
  { intros kf. assert (Q : forall l0, In kf l0 <-> In kf (at_key (fst kf) l0)) by (intros l0; unfold at_key; rewrite filter_In, eqb_refl; tauto).
    rewrite (Q l), (Q (flat_iter it)). unfold l. rewrite sort_key. tauto. }
  assert (FL : Forall (fun kf => f_des (snd kf) = fst kf /\ name (fst kf) /\ moderate (snd kf)) l).
  { apply Forall_forall. intros [k f] I. apply IN in I. unfold flat_iter in I. apply in_flat_map in I. destruct I as [[k' fs] [I J]].
    apply in_map_iff in J. destruct J as [f' [E J]]. injection E as <- <-. cbn [fst snd]. eapply H; eassumption. }
  destruct (lines_round l FL) as [t [es [l' [EL [IF [F1 [F2 EL']]]]]]].
  assert (NE : es <> []).
  { intros ->. inversion F1; subst. inversion F2 as [E|]; subst. symmetry in E.
    assert (I : In (k0, f0) l). { apply IN. unfold flat_iter. apply in_flat_map. exists (k0, fs0). split; [exact I0|]. apply (in_map (fun v => (k0, v))), J0. }
    rewrite E in I. destruct I. }
  destruct (isec_reads t es IF NE) as [l2 [FP EP]].
  assert (E2 : l2 = l').
  { apply (fix_pairs_det es); [exact FP|]. apply Forall2_pairs; [exact F1|]. clear - F2. induction F2 as [|? ? ? ? [_ [E _]] F IH]; constructor; [exact E | exact IH]. }
  subst l2. assert (NM : NoDup (keys (mpush_all l' []))) by (apply NoDup_mpush_all; constructor).
  exists t, (mpush_all l' []). split; [exact EL|]. split; [exact EP|]. split; [exact NM|]. split.
  - intros k. rewrite mget_vec_push_all. cbn [mget_vec get app]. rewrite <- (values_sorted k it ND). apply near_values, F2.
  - intros it' P. assert (ND' : NoDup (keys it')) by (eapply Permutation_NoDup; [apply Permutation_map, Permutation_sym, P | exact NM]).
    unfold isec_fmt. replace (sort_by_key (flat_iter it')) with l'; [exact EL'|].
    apply sorted_unique; [eapply sorted_keys; [exact F2 | apply sort_sorted] | apply sort_sorted|]. intros k.
    rewrite sort_key, flat_key by exact ND'. rewrite (mget_Permutation k _ _ NM P), mget_vec_push_all. cbn [mget_vec get app].
    unfold values_of, at_key. clear. induction l' as [|[k1 f] l' IH]; [reflexivity|]. cbn [filter fst]. destruct (eqb k k1) eqn:E; [|exact IH].
    rewrite eqb_true in E. subst k1. cbn [map snd]. rewrite IH at 1. reflexivity.
Qed.

Lemma moderate_check x : is_finite_SF x = true -> valid_binary 53 1024 x = true ->
  match x with S754_finite _ m e => (e <? 0)%Z && (Zpos m <? 1000 * 2 ^ (- e))%Z | S754_zero _ => true | _ => false end = true ->
  finite x /\ (Rabs (real_value x) <= 1000)%R.
Proof.
  intros F V H. split; [split; assumption|]. destruct x as [s|s| |s m e]; try discriminate.
  - unfold real_value. cbn. rewrite Rabs_R0. lra.
  - apply andb_true_iff in H. destruct H as [E H]. unfold real_value. cbn [SF2R]. rewrite <- F2R_Zabs, abs_cond_Zopp. cbn [Z.abs]. unfold F2R. cbn [Fnum Fexp].
    destruct e as [|p|p]; try discriminate. rewrite bpow_neg_div. apply Z.ltb_lt in H. cbn [Z.opp] in H.
    assert (D : (0 < 2 ^ Zpos p)%Z) by (apply Z.pow_pos_nonneg; lia). apply IZR_lt in H, D. rewrite mult_IZR in H.
    apply Rmult_le_reg_r with (IZR (2 ^ Zpos p)); [exact D|]. unfold Rdiv. rewrite Rmult_assoc, Rinv_l by lra. lra.
Qed.
