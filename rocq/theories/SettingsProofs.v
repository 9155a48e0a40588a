(** Proofs about settings, line styles and symbols. *)
From Coq Require Import ZifyBool ZifyN ZifyNat.
From Verif Require Import Base Num NumProofs Float FloatParse Constraints Settings SpecSettings.

(** * Timing *)
Lemma resolve_spec s fir ct f :
  (forall x, sets ct f x -> effective f (resolve s fir ct) = x) /\
  (forall t x, (forall y, ~ sets ct f y) -> fir_timing s fir t -> override f t = Some x ->
     effective f (resolve s fir ct) = x) /\
  ((forall y, ~ sets ct f y) -> (forall t x, fir_timing s fir t -> override f t <> Some x) ->
     effective f (resolve s fir ct) = global f s).
Proof.
  set (pick := fun (select : timing -> option f32) (default : f32) =>
    unwrap_or (or_else (and_then ct select) (and_then (and_then fir (fun f => get f (co_firs s))) select)) default).
  assert (E : effective f (resolve s fir ct) = pick (override f) (global f s)) by (destruct f; reflexivity).
  rewrite E. unfold pick. split; [|split].
  - intros x [t [-> H]]. cbn. rewrite H. reflexivity.
  - intros t x N [name [-> G]] H. destruct ct as [c|]; cbn.
    + destruct (override f c) as [y|] eqn:O; [exfalso; apply (N y); exists c; auto|]. rewrite G. cbn. rewrite H. reflexivity.
    + rewrite G. cbn. rewrite H. reflexivity.
  - intros N1 N2. assert (C : and_then ct (override f) = None).
    { destruct ct as [c|]; [|reflexivity]. cbn. destruct (override f c) as [y|] eqn:O; [|reflexivity].
      exfalso. apply (N1 y). exists c. auto. }
    rewrite C. cbn. destruct fir as [name|]; cbn; [|reflexivity].
    destruct (get name (co_firs s)) as [t|] eqn:G; cbn; [|reflexivity].
    destruct (override f t) as [x|] eqn:O; [|reflexivity].
    exfalso. apply (N2 t x); [exists name; auto | exact O].
Qed.

(** * Octal codes *)
Lemma octal_fold ds : Forall octal_digit ds -> forall a,
  digits_val 8 a ds = Some (fold_left (fun a c => (a * 8 + (c - 48))%N) ds a).
Proof.
  induction 1 as [|c ds D _ IH]; intros a; cbn [digits_val fold_left]; [reflexivity|].
  unfold octal_digit in D. unfold digit_val. replace (is_digit c) with true by (unfold is_digit; lia).
  replace (c - 48 <? 8)%N with true by lia. apply IH.
Qed.
Lemma digits_val_octal ds : forall a n, digits_val 8 a ds = Some n -> Forall octal_digit ds.
Proof.
  induction ds as [|c ds IH]; intros a n E; [constructor|]. cbn [digits_val] in E.
  unfold digit_val in E. destruct (is_digit c) eqn:D.
  - destruct (c - 48 <? 8)%N eqn:L; [|discriminate]. constructor; [|eauto].
    unfold octal_digit. unfold is_digit in D. lia.
  - destruct (is_upper c) eqn:U.
    + unfold is_upper in U. replace (c - 55 <? 8)%N with false in E by lia. discriminate.
    + destruct (is_lower c) eqn:Lo; [|discriminate].
      unfold is_lower in Lo. replace (c - 87 <? 8)%N with false in E by lia. discriminate.
Qed.

Lemma parse_octal s n : parse_u16_octal s = Some n <-> octal_numeral s n.
Proof.
  unfold parse_u16_octal, parse_uint, octal_numeral, u16_max.
  set (ds := match s with c :: r => if (c =? 43)%N then r else s | [] => [] end).
  assert (DS : s = ds \/ s = 43%N :: ds).
  { subst ds. destruct s as [|c s]; [auto|]. destruct (N.eqb_spec c 43) as [->|]; auto. }
  split.
  - unfold digits1_val. destruct ds as [|c r] eqn:ED; [discriminate|]. rewrite <- ED in *.
    destruct (digits_val 8 0 ds) as [v|] eqn:V; [|discriminate].
    destruct (v <=? 65535)%N eqn:L; [|discriminate]. intros X; injection X as <-.
    pose proof (digits_val_octal _ _ _ V) as F. exists ds. split; [exact DS|].
    split; [congruence|]. split; [exact F|]. rewrite octal_fold in V by exact F. unfold octal_value.
    split; [congruence | lia].
  - intros [ds' [DS' [NE [F [V L]]]]].
    assert (ds = ds') as ->.
    { subst ds. destruct ds' as [|c r]; [congruence|].
      assert (c <> 43%N) by (inversion F; subst; unfold octal_digit in *; lia).
      destruct DS' as [->| ->].
      - destruct (N.eqb_spec c 43); [contradiction | reflexivity].
      - reflexivity. }
    unfold digits1_val. destruct ds' as [|c r] eqn:ED; [congruence|]. rewrite <- ED in *.
    rewrite octal_fold by exact F. unfold octal_value in V. rewrite V.
    replace (n <=? 65535)%N with true by lia. reflexivity.
Qed.

Lemma oct_app a b acc : fold_left (fun a c => (a * 8 + (c - 48))%N) (a ++ b) acc =
  fold_left (fun a c => (a * 8 + (c - 48))%N) b (fold_left (fun a c => (a * 8 + (c - 48))%N) a acc).
Proof. apply fold_left_app. Qed.

Lemma octal_len_inj k : forall k', Forall octal_digit k -> Forall octal_digit k' ->
  List.length k = List.length k' -> octal_value k = octal_value k' -> k = k'.
Proof.
  unfold octal_value. induction k as [|c k IH] using rev_ind; intros k' F F' L V.
  - destruct k'; [reflexivity | discriminate].
  - destruct k' as [|c' k' _] using rev_ind; [rewrite app_length in L; cbn in L; lia|].
    rewrite !app_length in L. cbn in L. rewrite !oct_app in V. cbn [fold_left] in V.
    apply Forall_app in F, F'. destruct F as [F1 F2], F' as [F1' F2'].
    inversion F2; inversion F2'; subst. unfold octal_digit in *.
    assert (c = c') by lia. subst c'. f_equal. apply IH; auto; [lia|]. lia.
Qed.

Lemma octal_bound k : Forall octal_digit k -> (octal_value k < 8 ^ N.of_nat (List.length k))%N.
Proof.
  unfold octal_value. induction k as [|c k IH] using rev_ind; intros F; [cbn; lia|].
  apply Forall_app in F. destruct F as [F1 F2]. inversion F2; subst. unfold octal_digit in *.
  rewrite oct_app, app_length. cbn [fold_left List.length].
  rewrite Nat.add_1_r, Nat2N.inj_succ, N.pow_succ_r'. specialize (IH F1). lia.
Qed.
Lemma octal_lower k c : Forall octal_digit (c :: k) -> c <> 48%N ->
  (8 ^ N.of_nat (List.length k) <= octal_value (c :: k))%N.
Proof.
  unfold octal_value. induction k as [|x k IH] using rev_ind; intros F NE.
  - inversion F; subst. unfold octal_digit in *. cbn. lia.
  - rewrite app_comm_cons, oct_app, app_length. cbn [fold_left List.length].
    rewrite Nat.add_1_r, Nat2N.inj_succ, N.pow_succ_r'.
    rewrite app_comm_cons in F. apply Forall_app in F. destruct F as [F1 F2]. specialize (IH F1 NE). cbn [fold_left] in IH. lia.
Qed.

Lemma code_text_fun n k k' : code_text n k -> code_text n k' -> k = k'.
Proof.
  intros [F [V L]] [F' [V' L']]. apply octal_len_inj; auto; [|congruence].
  pose proof (octal_bound k F) as B. pose proof (octal_bound k' F') as B'. rewrite V in B. rewrite V' in B'.
  assert (LOW : forall x, Forall octal_digit x -> octal_value x = n -> 4 < List.length x -> hd_error x <> Some 48%N ->
     (8 ^ N.of_nat (List.length x - 1) <= n)%N).
  { intros [|c x] Fx Vx Lx H; [cbn in Lx; lia|]. rewrite <- Vx. cbn [List.length]. rewrite Nat.sub_succ, Nat.sub_0_r.
    apply octal_lower; [exact Fx|]. cbn in H. congruence. }
  assert (MONO : forall a b, (8 ^ N.of_nat a < 8 ^ N.of_nat b)%N -> a < b).
  { intros a b H. apply N.pow_lt_mono_r_iff in H; lia. }
  assert (X : forall x y, (8 ^ N.of_nat x <= n)%N -> (n < 8 ^ N.of_nat y)%N -> x < y).
  { intros x y H1 H2. apply MONO. lia. }
  destruct L as [L|[L1 L2]], L' as [L'|[L1' L2']].
  - lia.
  - pose proof (X _ _ (LOW k' F' V' L1' L2') B). lia.
  - pose proof (X _ _ (LOW k F V L1 L2) B'). lia.
  - pose proof (X _ _ (LOW k' F' V' L1' L2') B). pose proof (X _ _ (LOW k F V L1 L2) B'). lia.
Qed.

Lemma fmt_aux_hd f : forall radix n acc, (2 <= radix <= 10)%N -> (n < radix ^ N.of_nat f)%N -> (n <> 0)%N ->
  hd_error (fmt_aux f radix n acc) <> Some 48%N.
Proof.
  induction f as [|f IH]; intros radix n acc R B NZ; [cbn in B; lia|]. cbn [fmt_aux].
  destruct (N.eqb_spec (n / radix) 0) as [E|E].
  - cbn. apply N.div_small_iff in E; [|lia]. rewrite N.mod_small by exact E. unfold digit_char.
    replace (n <? 10)%N with true by lia. assert (48 + n <> 48)%N by lia. congruence.
  - apply IH; auto. rewrite Nat2N.inj_succ, N.pow_succ_r' in B. apply N.div_lt_upper_bound; lia.
Qed.

Lemma octal4_code n : code_text n (octal4 n).
Proof.
  unfold octal4.
  assert (F : Forall octal_digit (pad_left 48%N 4 (fmt_uint 8 n))).
  { apply pad_fmt_chars; [lia|]. intros d Hd. unfold digit_char, octal_digit.
    replace (d <? 10)%N with true by lia. lia. }
  split; [exact F|]. split.
  - pose proof (digits_pad_fmt 8 4 n ltac:(lia) ltac:(lia)) as E.
    rewrite octal_fold in E by exact F. unfold octal_value. congruence.
  - unfold pad_left. rewrite app_length, repeat_length.
    destruct (Nat.le_gt_cases (List.length (fmt_uint 8 n)) 4); [left; lia|]. right. split; [lia|].
    replace (4 - List.length (fmt_uint 8 n)) with 0 by lia. cbn [repeat app].
    destruct (N.eq_dec n 0) as [->|NZ]; [cbn in H; lia|].
    unfold fmt_uint. apply fmt_aux_hd; [lia| |exact NZ].
    pose proof (size_nat_bound n) as B. rewrite Nat2N.inj_succ, N.pow_succ_r'.
    assert (2 ^ N.of_nat (N.size_nat n) <= 8 ^ N.of_nat (N.size_nat n))%N by (apply N.pow_le_mono_l; lia). lia.
Qed.
Lemma octal4_iff n k : k = octal4 n <-> code_text n k.
Proof.
  split; [intros ->; apply octal4_code|]. intros H. eapply code_text_fun; [exact H | apply octal4_code].
Qed.

Lemma count_from_In n : forall a x, In x (count_from a n) <-> (a <= x < a + N.of_nat n)%N.
Proof.
  induction n as [|n IH]; intros a x; cbn [count_from In]; [lia|]. rewrite IH. lia.
Qed.
Lemma range_incl_In a b x : In x (range_incl a b) <-> (a <= x <= b)%N.
Proof.
  unfold range_incl. destruct (a <=? b)%N eqn:E; [rewrite count_from_In; lia|]. cbn. lia.
Qed.

Lemma squawk_codes_In q k m : In (k, m) (squawk_codes q) <-> covers q k /\ m = sq_msg q.
Proof.
  unfold squawk_codes, covers. destruct (sq_code q) as [s|], (sq_range q) as [[a b]|].
  - cbn. split; [tauto|]. intros [[n [_ [[? [_ [? _]]]|[? [? [? [? [? _]]]]]]]] _]; discriminate.
  - destruct (parse_u16_octal s) as [v|] eqn:P.
    + apply parse_octal in P. cbn [In]. split.
      * intros [E|[]]. injection E as <- <-. split; [|reflexivity]. exists v. split; [apply octal4_code|]. eauto.
      * intros [[n [C [[s' [E [_ H]]]|[? [? [? [? [? _]]]]]]]] ->]; [|discriminate].
        injection E as <-. apply parse_octal in H. apply parse_octal in P. rewrite P in H. injection H as <-.
        left. apply octal4_iff in C. congruence.
    + cbn. split; [tauto|]. intros [[n [C [[s' [E [_ H]]]|[? [? [? [? [? _]]]]]]]] ->]; [|discriminate].
      injection E as <-. apply parse_octal in H. congruence.
  - destruct (parse_u16_octal a) as [va|] eqn:PA, (parse_u16_octal b) as [vb|] eqn:PB.
    1: { rewrite in_map_iff. split.
      - intros [i [E I]]. injection E as <- <-. apply range_incl_In in I. split; [|reflexivity].
        exists i. split; [apply octal4_code|]. right. exists a, b, va, vb.
        apply parse_octal in PA, PB. auto 10.
      - intros [[n [C [[? [? _]]|[a' [b' [lo [hi [_ [E [Ha [Hb L]]]]]]]]]]] ->]; [discriminate|].
        injection E as <- <-. apply parse_octal in Ha, Hb. rewrite PA in Ha. rewrite PB in Hb.
        injection Ha as <-. injection Hb as <-. exists n. apply octal4_iff in C. rewrite <- C.
        split; [reflexivity | apply range_incl_In, L]. }
    all: cbn; split; [tauto|]; intros [[n [C [[? [? _]]|[a' [b' [lo [hi [_ [E [Ha [Hb L]]]]]]]]]]] ->]; [discriminate|];
      injection E as <- <-; apply parse_octal in Ha, Hb; congruence.
  - cbn. split; [tauto|]. intros [[n [_ [[? [? _]]|[? [? [? [? [_ [? _]]]]]]]]] _]; discriminate.
Qed.

Lemma get_same_value {V} (k : text) (m : V) l : (forall k' m', In (k', m') l -> m' = m) ->
  match get k l with Some x => x = m /\ In (k, m) l | None => ~ In (k, m) l end.
Proof.
  intros H. destruct (get k l) as [x|] eqn:E.
  - apply get_In in E. pose proof (H _ _ E) as ->. auto.
  - intros I. apply get_None in E. apply E. apply in_map_iff. exists (k, m). auto.
Qed.

Lemma special_use_codes_spec l k m : get k (special_use_codes l) = Some m <->
  exists pre q post, l = pre ++ q :: post /\ covers q k /\ sq_msg q = m /\ forall q', In q' post -> ~ covers q' k.
Proof.
  unfold special_use_codes. rewrite get_of_list. induction l as [|q l IH] using rev_ind.
  - cbn. split; [discriminate|]. intros [pre [q [post [E _]]]]. destruct pre; discriminate.
  - rewrite flat_map_app, rev_app_distr, get_app. cbn [flat_map]. rewrite app_nil_r.
    pose proof (get_same_value k (sq_msg q) (rev (squawk_codes q))) as G.
    assert (H : forall k' m', In (k', m') (rev (squawk_codes q)) -> m' = sq_msg q).
    { intros k' m' I. apply in_rev in I. apply squawk_codes_In in I. apply I. }
    specialize (G H).
    destruct (get k (rev (squawk_codes q))) as [x|]; rewrite <- (in_rev (squawk_codes q)), (squawk_codes_In q k) in G.
    + destruct G as [-> [C _]]. split.
      * intros X; injection X as <-. exists l, q, []. cbn. auto.
      * intros [pre [q' [post [E [C' [M N]]]]]]. destruct post as [|y post _] using rev_ind.
        -- apply app_inj_tail in E. destruct E as [_ ->]. congruence.
        -- rewrite app_comm_cons, app_assoc in E. apply app_inj_tail in E. destruct E as [_ ->].
           exfalso. apply (N y); [apply in_app_iff; right; left; reflexivity | exact C].
    + assert (NC : ~ covers q k) by tauto. rewrite IH. split.
      * intros [pre [q' [post [-> [C' [M N]]]]]]. exists pre, q', (post ++ [q]). rewrite <- app_assoc.
        split; [reflexivity|]. split; [exact C'|]. split; [exact M|].
        intros y I. apply in_app_iff in I. destruct I as [I|[<-|[]]]; auto.
      * intros [pre [q' [post [E [C' [M N]]]]]]. destruct post as [|y post _] using rev_ind.
        -- apply app_inj_tail in E. destruct E as [_ ->]. contradiction.
        -- rewrite app_comm_cons, app_assoc in E. apply app_inj_tail in E. destruct E as [-> ->].
           exists pre, q', post. split; [reflexivity|]. split; [exact C'|]. split; [exact M|].
           intros z I. apply N. apply in_app_iff; auto.
Qed.

(** * Line styles *)
Lemma builtin_In k d : In (k, d) builtin_styles <-> builtin_style k d.
Proof.
  unfold builtin_styles, lit. split.
  - cbn [In]. intros H. repeat (destruct H as [H|H]; [injection H as <- <-; constructor|]). destruct H.
  - intros H. destruct H; cbn [In]; unfold d_; auto 10.
Qed.
Lemma builtin_nodup : NoDup (keys builtin_styles).
Proof. apply nodupb_NoDup. vm_compute. reflexivity. Qed.

Lemma builtin_get k d : get k (rev builtin_styles) = Some d <-> builtin_style k d.
Proof.
  rewrite <- builtin_In. rewrite <- (get_perm k builtin_styles) by (apply builtin_nodup || apply Permutation_rev).
  split; [apply get_In | apply In_get, builtin_nodup].
Qed.

Lemma chunks2_ok l : List.length (chunks2 l) = Nat.div2 (List.length l) /\
  forall i d, nth_error (chunks2 l) i = Some d ->
    nth_error l (2 * i) = Some (d_len d) /\ nth_error l (2 * i + 1) = Some (d_gap d).
Proof.
  assert (H : forall n l, List.length l <= n -> List.length (chunks2 l) = Nat.div2 (List.length l) /\
    forall i d, nth_error (chunks2 l) i = Some d ->
    nth_error l (2 * i) = Some (d_len d) /\ nth_error l (2 * i + 1) = Some (d_gap d)).
  { induction n as [|n IH]; intros [|a [|b r]] L; cbn [List.length] in L; try lia;
      try (split; [reflexivity|]; intros [|i] d; cbn; discriminate).
    destruct (IH r ltac:(lia)) as [H1 H2]. cbn [chunks2 List.length Nat.div2]. split; [congruence|].
    intros [|i] d E.
    - cbn in E. injection E as <-. auto.
    - cbn [nth_error] in E. destruct (H2 i d E) as [A B].
      replace (2 * S i) with (S (S (2 * i))) by lia. cbn [nth_error Nat.add]. split; [exact A|].
      replace (S (2 * i) + 1) with (S (2 * i + 1)) by lia. exact B. }
  apply (H (List.length l)). lia.
Qed.

Lemma dashes_spec l : dashes_ok l (if Nat.ltb 1 (List.length l) then Some (chunks2 l) else None).
Proof.
  destruct (Nat.ltb_spec 1 (List.length l)); cbn [dashes_ok]; [|lia].
  split; [lia|]. apply chunks2_ok.
Qed.
Lemma dashes_fun l o : dashes_ok l o -> o = if Nat.ltb 1 (List.length l) then Some (chunks2 l) else None.
Proof.
  destruct o as [ds|]; cbn [dashes_ok].
  - intros [L [LE H]]. replace (1 <? List.length l) with true by lia. f_equal.
    destruct (chunks2_ok l) as [LC C]. rewrite <- LE in LC. clear LE L.
    apply nth_ext with (d := mkDash S754_nan S754_nan) (d' := mkDash S754_nan S754_nan); [congruence|].
    intros n Hn. destruct (nth_error ds n) as [x|] eqn:E1; [|apply nth_error_None in E1; lia].
    destruct (nth_error (chunks2 l) n) as [y|] eqn:E2; [|apply nth_error_None in E2; lia].
    erewrite !nth_error_nth by eassumption. destruct (H n x E1), (C n y E2). destruct x, y; cbn in *. congruence.
  - intros L. replace (1 <? List.length l) with false by lia. reflexivity.
Qed.

Lemma styles_builtin upper styles k d : builtin_style k d ->
  get k (line_styles_from_topsky upper styles) = Some d.
Proof.
  intros B. unfold line_styles_from_topsky. rewrite get_of_list, rev_app_distr, get_app.
  apply builtin_get in B. rewrite B. reflexivity.
Qed.

Lemma styles_custom upper styles k d : ~ builtin_name k ->
  get k (line_styles_from_topsky upper (Some styles)) = Some d <->
  exists pre name l post, styles = pre ++ (name, l) :: post /\ upper name = k /\ dashes_ok l d /\
    forall x, In x post -> upper (fst x) <> k.
Proof.
  intros NB. unfold line_styles_from_topsky. rewrite get_of_list, rev_app_distr, get_app.
  destruct (get k (rev builtin_styles)) as [x|] eqn:E.
  { apply builtin_get in E. exfalso. apply NB. exists x. exact E. }
  clear E. induction styles as [|[name l] styles IH] using rev_ind.
  - cbn. split; [discriminate|]. intros [pre [? [? [? [E _]]]]]. destruct pre; discriminate.
  - rewrite map_app, rev_app_distr. cbn [map rev app get fst snd].
    destruct (eq_dec k (upper name)) as [->|ne].
    + split.
      * intros X; injection X as <-. exists styles, name, l, []. split; [reflexivity|]. split; [reflexivity|].
        split; [apply dashes_spec | intros x []].
      * intros [pre [name' [l' [post [E [U [D N]]]]]]]. destruct post as [|y post _] using rev_ind.
        -- apply app_inj_tail in E. destruct E as [_ E]. injection E as <- <-. f_equal. symmetry. apply dashes_fun, D.
        -- rewrite app_comm_cons, app_assoc in E. apply app_inj_tail in E. destruct E as [_ <-].
           exfalso. apply (N (name, l)); [apply in_app_iff; right; left; reflexivity | reflexivity].
    + rewrite IH. split.
      * intros [pre [name' [l' [post [-> [U [D N]]]]]]]. exists pre, name', l', (post ++ [(name, l)]).
        rewrite <- app_assoc. split; [reflexivity|]. split; [exact U|]. split; [exact D|].
        intros x I. apply in_app_iff in I. destruct I as [I|[<-|[]]]; [auto|]. cbn. congruence.
      * intros [pre [name' [l' [post [E [U [D N]]]]]]]. destruct post as [|y post _] using rev_ind.
        -- apply app_inj_tail in E. destruct E as [_ E]. injection E as <- <-. congruence.
        -- rewrite app_comm_cons, app_assoc in E. apply app_inj_tail in E. destruct E as [-> _].
           exists pre, name', l', post. split; [reflexivity|]. split; [exact U|]. split; [exact D|].
           intros x I. apply N. apply in_app_iff; auto.
Qed.

Lemma styles_order upper styles styles' k : Permutation styles styles' ->
  NoDup (map (fun x => upper (fst x)) styles) ->
  get k (line_styles_from_topsky upper (Some styles)) = get k (line_styles_from_topsky upper (Some styles')).
Proof.
  intros P ND. unfold line_styles_from_topsky. rewrite !get_of_list, !rev_app_distr, !get_app.
  destruct (get k (rev builtin_styles)); [reflexivity|]. apply get_perm.
  - unfold keys. rewrite map_rev. apply (Permutation_NoDup (Permutation_rev _)). rewrite map_map. cbn [fst]. exact ND.
  - rewrite <- !Permutation_rev. apply Permutation_map, P.
Qed.

(** * Symbols *)
Lemma pick_symbol_spec topsky symb name t d :
  (forall l s, topsky = Some l -> get (s2t name) l = Some s -> pick_symbol topsky symb name t d = s) /\
  (forall s, (forall l, topsky = Some l -> get (s2t name) l = None) -> get t symb = Some s ->
     pick_symbol topsky symb name t d = s) /\
  ((forall l, topsky = Some l -> get (s2t name) l = None) -> get t symb = None ->
     pick_symbol topsky symb name t d = d).
Proof.
  unfold pick_symbol. split; [|split].
  - intros l s -> E. cbn [and_then]. rewrite E. reflexivity.
  - intros s N E. destruct topsky as [l|]; cbn [and_then]; [rewrite (N l eq_refl)|]; rewrite E; reflexivity.
  - intros N E. destruct topsky as [l|]; cbn [and_then]; [rewrite (N l eq_refl)|]; rewrite E; reflexivity.
Qed.

Lemma symbols_spec topsky symb k : symbol_field k (symbols_from topsky symb) =
  pick_symbol topsky symb (topsky_name k) (symbology_type k)
    (match k with KVor => default_ndb | _ => symbol_field k symbols_default end).
Proof. destruct k; reflexivity. Qed.

Lemma symbols_table topsky symb k :
  (forall l s, topsky = Some l -> get (s2t (topsky_name k)) l = Some s -> symbol_field k (symbols_from topsky symb) = s) /\
  (forall s, (forall l, topsky = Some l -> get (s2t (topsky_name k)) l = None) -> get (symbology_type k) symb = Some s ->
     symbol_field k (symbols_from topsky symb) = s) /\
  ((forall l, topsky = Some l -> get (s2t (topsky_name k)) l = None) -> get (symbology_type k) symb = None ->
     k <> KVor -> symbol_field k (symbols_from topsky symb) = symbol_field k symbols_default).
Proof.
  rewrite symbols_spec.
  destruct (pick_symbol_spec topsky symb (topsky_name k) (symbology_type k)
    (match k with KVor => default_ndb | _ => symbol_field k symbols_default end)) as [A [B C]].
  split; [exact A|]. split; [exact B|]. intros N E K. rewrite (C N E). destruct k; congruence.
Qed.

Lemma line_settings_spec its k :
  (forall i, item_of its (fst (line_item k)) (snd (line_item k)) = Some i ->
     ls_width (line_field k (line_settings_from its)) = it_weight i /\
     ls_style (line_field k (line_settings_from its)) = it_style i) /\
  (item_of its (fst (line_item k)) (snd (line_item k)) = None ->
     line_field k (line_settings_from its) = mkLineStyle 1 (s2t "SOLID")).
Proof.
  assert (E : line_field k (line_settings_from its) = style_of (item_of its (fst (line_item k)) (snd (line_item k))))
    by (destruct k; reflexivity).
  rewrite E. split; [intros i -> | intros ->]; cbn; auto.
Qed.

Lemma label_settings_spec its k :
  (forall i, item_of its (label_folder k) "name" = Some i ->
     label_field k (label_settings_from its) = (it_align i, SFmul 24 128 (it_size i) (f32_lit 35 1))) /\
  (item_of its (label_folder k) "name" = None ->
     label_field k (label_settings_from its) = ((HCenter, VCenter), f32_lit 105 1)).
Proof.
  assert (E : label_field k (label_settings_from its) = label_of (item_of its (label_folder k) "name"))
    by (destruct k; reflexivity).
  rewrite E. split; [intros i -> | intros ->]; [reflexivity|]. vm_compute. reflexivity.
Qed.

(** * TopSky settings *)
Lemma parse_with_default_spec {T} (parse : text -> option T) m key d :
  (forall v x, get (s2t key) m = Some v -> parse v = Some x -> parse_with_default parse m key d = x) /\
  ((forall v, get (s2t key) m = Some v -> parse v = None) -> parse_with_default parse m key d = d).
Proof.
  unfold parse_with_default. split.
  - intros v x -> E. cbn. rewrite E. reflexivity.
  - intros H. destruct (get (s2t key) m) as [v|]; [|reflexivity]. cbn. rewrite (H v eq_refl). reflexivity.
Qed.
