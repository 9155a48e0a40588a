(** Proofs about the paths of .prf profiles. *)
From Coq Require Import ZifyBool ZifyN ZifyNat Permutation.
From Verif Require Import Base Peg PegForward Trees Paths Prf SpecPrf PrfProofs.
Local Open Scope string_scope.
Local Open Scope list_scope.

Lemma white_space_spec c : is_white c = true <-> In c white_space.
Proof.
  unfold white_space. cbn [In]. unfold is_white. split; intros H; [|lia].
  assert (X : (c = 9 \/ c = 10 \/ c = 11 \/ c = 12 \/ c = 13 \/ c = 32 \/ c = 133 \/ c = 160 \/ c = 5760 \/ c = 8192 \/ c = 8193 \/ c = 8194 \/ c = 8195
    \/ c = 8196 \/ c = 8197 \/ c = 8198 \/ c = 8199 \/ c = 8200 \/ c = 8201 \/ c = 8202 \/ c = 8232 \/ c = 8233 \/ c = 8239 \/ c = 8287 \/ c = 12288)%N) by lia.
  intuition congruence.
Qed.
Lemma trim_start_spec s : exists w, s = w ++ trim_start s /\ Forall (fun c => In c white_space) w /\
  forall c r, trim_start s = c :: r -> ~ In c white_space.
Proof.
  induction s as [|c s [w [E [F N]]]].
  - exists []. split; [reflexivity|]. split; [constructor | discriminate].
  - cbn [trim_start]. destruct (is_white c) eqn:W.
    + exists (c :: w). split; [cbn; f_equal; exact E|]. split; [constructor; [apply white_space_spec, W | exact F] | exact N].
    + exists []. split; [reflexivity|]. split; [constructor|]. intros c' r' X. injection X as -> ->. rewrite <- white_space_spec. congruence.
Qed.
Lemma trim_end_spec s : trimmed s (trim_end s).
Proof.
  destruct (trim_start_spec (rev s)) as [w [E [F N]]]. exists (rev w). unfold trim_end. split.
  - rewrite <- rev_app_distr, <- E. symmetry. apply rev_involutive.
  - split; [apply Forall_rev, F|]. intros r' c X. apply (N c (rev r')). apply (f_equal (@rev BinNums.N)) in X. rewrite rev_involutive, rev_app_distr in X. exact X.
Qed.
Lemma trim_start_app w s : Forall (fun c => In c white_space) w -> (forall c r, s = c :: r -> ~ In c white_space) -> trim_start (w ++ s) = s.
Proof.
  intros F N. induction F as [|c w C _ IH].
  - destruct s as [|c s]; [reflexivity|]. cbn. destruct (is_white c) eqn:W; [|reflexivity]. apply white_space_spec in W. exfalso. exact (N _ _ eq_refl W).
  - cbn. apply white_space_spec in C. rewrite C. exact IH.
Qed.
Lemma trimmed_fun s r : trimmed s r -> r = trim_end s.
Proof.
  intros [w [-> [F N]]]. unfold trim_end. rewrite rev_app_distr, trim_start_app; [symmetry; apply rev_involutive | apply Forall_rev, F|].
  intros c r' E. apply (N (rev r')). rewrite <- (rev_involutive r), E. reflexivity.
Qed.
Definition slash_all (s : text) : text := map (fun c => if (c =? 92)%N then 47%N else c) s.
Lemma slashed_spec s u : slashed s u <-> u = slash_all s.
Proof.
  split.
  - intros F. induction F as [|c d s u H _ IH]; [reflexivity|]. cbn. rewrite IH. f_equal.
    destruct (N.eq_dec c 92) as [->|NE]; [exact H|]. destruct (N.eqb_spec c 92); [contradiction | exact H].
  - intros ->. induction s as [|c s IH]; constructor; [|exact IH]. destruct (N.eq_dec c 92) as [->|NE]; [reflexivity|]. destruct (N.eqb_spec c 92); [contradiction | reflexivity].
Qed.
Lemma split_slash_last n : forall cur, ~ In 47%N n -> split_slash cur n = [rev cur ++ n].
Proof.
  induction n as [|c n IH]; intros cur N; [rewrite app_nil_r; reflexivity|]. cbn [split_slash]. unfold SLASH.
  destruct (N.eqb_spec c 47) as [->|NE]; [contradiction N; left; reflexivity|]. rewrite IH by (intros I; apply N; right; exact I).
  cbn [rev]. rewrite <- app_assoc. reflexivity.
Qed.
Lemma split_slash_cons n : forall cur r, ~ In 47%N n -> split_slash cur (n ++ 47%N :: r) = (rev cur ++ n) :: split_slash [] r.
Proof.
  induction n as [|c n IH]; intros cur r N; [cbn; rewrite app_nil_r; reflexivity|]. cbn [app split_slash]. unfold SLASH.
  destruct (N.eqb_spec c 47) as [->|NE]; [contradiction N; left; reflexivity|]. rewrite IH by (intros I; apply N; right; exact I).
  cbn [rev]. rewrite <- app_assoc. reflexivity.
Qed.
Lemma filter_name n l : filter is_name (n :: l) =
  (if list_eq_dec N.eq_dec n [] then [] else if list_eq_dec N.eq_dec n [46%N] then [] else [n]) ++ filter is_name l.
Proof.
  cbn [filter]. unfold is_name. destruct (list_eq_dec N.eq_dec n []) as [->|N1]; [reflexivity|]. destruct (list_eq_dec N.eq_dec n [46%N]) as [->|N2]; [reflexivity|].
  rewrite (proj2 (eqb_false n []) N1). change (s2t ".") with [46%N]. rewrite (proj2 (eqb_false n [46%N]) N2). reflexivity.
Qed.
Lemma names_fun s l : names s l -> l = filter is_name (split_slash [] s).
Proof.
  intros H. induction H as [n N|n r l N _ IH].
  - rewrite (split_slash_last n [] N). cbn [rev app]. rewrite filter_name, app_nil_r. reflexivity.
  - rewrite (split_slash_cons n [] r N). cbn [rev app]. rewrite filter_name, <- IH. reflexivity.
Qed.
Lemma names_total s : names s (filter is_name (split_slash [] s)).
Proof.
  assert (H : forall n s, List.length s <= n -> exists l, names s l).
  { induction n as [|n IH]; intros q L.
    - destruct q; [|cbn in L; lia]. eexists. apply names_last. auto.
    - destruct (in_dec N.eq_dec 47%N q) as [I|I]; [|eexists; apply names_last, I].
      assert (X : exists a b, q = a ++ 47%N :: b /\ ~ In 47%N a).
      { clear L. induction q as [|c q IHq]; [contradiction I|]. destruct (N.eq_dec c 47) as [->|NE]; [exists [], q; auto|].
        destruct IHq as [a [b [-> NA]]]; [destruct I; [contradiction | assumption]|]. exists (c :: a), b. split; [reflexivity|]. intros [E|E]; [contradiction | exact (NA E)]. }
      destruct X as [a [b [-> NA]]]. destruct (IH b) as [l HL]; [rewrite app_length in L; cbn in L; lia|]. eexists. apply names_cons; eassumption. }
  destruct (H _ s (Nat.le_refl _)) as [l HL]. rewrite <- (names_fun s l HL). exact HL.
Qed.

Lemma removelast_app_one {A} (l : list A) x : removelast (l ++ [x]) = l.
Proof. apply removelast_last. Qed.
Lemma directory_parent p d : directory p d -> parent p = Some d.
Proof.
  intros [R [n E]]. unfold parent. rewrite E. destruct (comps d ++ [n]) as [|x q] eqn:X; [destruct (comps d); discriminate X|].
  rewrite <- X, removelast_app_one. destruct d as [rd cd], p as [rp cp]. cbn in *. subst. reflexivity.
Qed.
Lemma below_eq d l p : below d l p -> p = mkPath (rooted d) (comps d ++ l).
Proof. intros [A B]. destruct p as [rp cp]. cbn in *. subst. reflexivity. Qed.
Lemma to_path_rel u : ~ starts_with (N.eqb 47) u -> to_path u = mkPath false (filter is_name (split_slash [] u)).
Proof.
  intros N. unfold to_path. f_equal. destruct u as [|c u]; [reflexivity|]. unfold SLASH. destruct (N.eqb_spec c 47) as [->|]; [|reflexivity].
  contradiction N. exists 47%N, u. auto.
Qed.
Lemma to_path_abs u : to_path (47%N :: u) = mkPath true (filter is_name (split_slash [] u)).
Proof. reflexivity. Qed.
Lemma join_settings_eq cwd p v : join_settings_path cwd p v =
  match strip (s2t "/") (slash_all (trim_end v)) with
  | Some rel => do d <- unwrap (parent (prf_path p)); Ret (join d (to_path rel))
  | None => Ret (join cwd (to_path (slash_all (trim_end v))))
  end.
Proof. reflexivity. Qed.
Lemma resolves_ok cwd p v q d : directory (prf_path p) d -> resolves cwd (prf_path p) v q -> join_settings_path cwd p v = Ret q.
Proof.
  intros D [s rest l d' q' T S N L D' B|s u l q' T S N L B|s rest l q' T S L B];
    apply trimmed_fun in T; subst s; rewrite slashed_spec in S; rewrite join_settings_eq, <- S;
    apply names_fun in L; subst l; apply below_eq in B; subst q'.
  - change (strip (s2t "/") (47%N :: rest)) with (Some rest). rewrite (directory_parent _ _ D'). walk. rewrite to_path_rel by exact N. reflexivity.
  - rewrite to_path_rel by exact N. destruct u as [|c u]; [reflexivity|]. cbn [strip s2t]. destruct (N.eqb_spec 47 c) as [<-|NE]; [|].
    + contradiction N. exists 47%N, u. auto.
    + change (Ascii.N_of_ascii "/") with 47%N. destruct (N.eqb_spec 47 c); [contradiction | reflexivity].
  - change (strip (s2t "/") (47%N :: 47%N :: rest)) with (Some (47%N :: rest)). rewrite (directory_parent _ _ D). walk. rewrite to_path_abs. reflexivity.
Qed.
Lemma resolves_total cwd p v d : directory p d -> exists q, resolves cwd p v q.
Proof.
  intros D. pose proof (trim_end_spec v) as T. assert (S : slashed (trim_end v) (slash_all (trim_end v))) by (apply slashed_spec; reflexivity).
  assert (B : forall d l, below d l (mkPath (rooted d) (comps d ++ l))) by (split; reflexivity).
  destruct (slash_all (trim_end v)) as [|c u] eqn:E.
  - eexists. eapply resolves_cwd; [exact T | exact S | | apply names_total | apply B]. intros [x [r [X _]]]. discriminate X.
  - destruct (N.eq_dec c 47) as [->|NE].
    + destruct u as [|c u]; [|destruct (N.eq_dec c 47) as [->|NE]].
      * eexists. eapply resolves_profile; [exact T | exact S | | apply names_total | exact D | apply B]. intros [x [r [X _]]]. discriminate X.
      * eexists. eapply resolves_root; [exact T | exact S | apply names_total | apply B].
      * eexists. eapply resolves_profile; [exact T | exact S | | apply names_total | exact D | apply B]. intros [x [r [X Y]]]. injection X as <- _.
        apply N.eqb_eq in Y. congruence.
    + eexists. eapply resolves_cwd; [exact T | exact S | | apply names_total | apply B]. intros [x [r [X Y]]]. injection X as <- _. apply N.eqb_eq in Y. congruence.
Qed.
Lemma resolves_fun cwd p v q q' d : directory p d -> resolves cwd p v q -> resolves cwd p v q' -> q' = q.
Proof.
  intros D R R'. pose proof (resolves_ok cwd (mkPrf [] p) v q d D R). pose proof (resolves_ok cwd (mkPrf [] p) v q' d D R'). congruence.
Qed.

(** ** Names next to a file *)
Lemma before_last_dot_spec n : match before_last_dot n with Some s => exists x, n = s ++ 46%N :: x /\ ~ In 46%N x | None => ~ In 46%N n end.
Proof.
  induction n as [|c n IH]; [intros []|]. cbn [before_last_dot]. destruct (before_last_dot n) as [s|].
  - destruct IH as [x [-> N]]. exists x. auto.
  - destruct (N.eqb_spec c 46) as [->|NE]; [exists n; auto|]. intros [E|E]; [contradiction | exact (IH E)].
Qed.
Lemma last_dot_unique s x s' x' : s ++ 46%N :: x = s' ++ 46%N :: x' -> ~ In 46%N x -> ~ In 46%N x' -> s = s'.
Proof.
  revert s'. induction s as [|c s IH]; intros [|c' s'] E N N'; cbn in E.
  - reflexivity.
  - injection E as _ ->. contradiction N. apply in_app_iff. right. left. reflexivity.
  - injection E as _ <-. contradiction N'. apply in_app_iff. right. left. reflexivity.
  - injection E as -> E. f_equal. eapply IH; eassumption.
Qed.
Lemma stem_extension e n : extension e n (stem n ++ s2t "." ++ e).
Proof.
  unfold extension, stem. change (s2t "." ++ e) with (46%N :: e). pose proof (before_last_dot_spec n) as B. destruct (before_last_dot n) as [[|c s]|].
  - right. split; [|reflexivity]. destruct B as [x [-> N]]. intros [s' [x' [E [NE N']]]]. apply (last_dot_unique []) in E; [|assumption..]. congruence.
  - left. destruct B as [x [-> N]]. exists (c :: s), x. split; [reflexivity|]. split; [discriminate|]. auto.
  - right. split; [|reflexivity]. intros [s' [x' [-> _]]]. apply B, in_app_iff. right. left. reflexivity.
Qed.
Lemma file_name_spec p d n : rooted d = rooted p -> comps p = comps d ++ [n] -> n <> s2t ".." -> file_name p = Some n.
Proof. intros _ E N. unfold file_name. rewrite E, rev_app_distr. cbn [rev app]. rewrite (proj2 (eqb_false n _) N). reflexivity. Qed.
Lemma with_extension_spec e p d n : rooted d = rooted p -> comps p = comps d ++ [n] -> n <> s2t ".." ->
  exists n', extension e n n' /\ with_extension e p = mkPath (rooted d) (comps d ++ [n']).
Proof.
  intros R E N. unfold with_extension. rewrite (file_name_spec p d n R E N), E, removelast_app_one, R.
  exists (stem n ++ s2t "." ++ e). split; [apply stem_extension | reflexivity].
Qed.
Lemma with_file_name_spec f p d n : rooted d = rooted p -> comps p = comps d ++ [n] -> n <> s2t ".." -> to_path f = mkPath false [f] ->
  with_file_name f p = mkPath (rooted d) (comps d ++ [f]).
Proof.
  intros R E N F. unfold with_file_name, pop. rewrite (file_name_spec p d n R E N), F.
  rewrite (directory_parent p d) by (split; [exact R | exists n; exact E]). reflexivity.
Qed.

(** ** Plugins *)
Lemma file_name_inv p n : file_name p = Some n -> exists d, parent p = Some d /\ directory p d /\ comps p = comps d ++ [n].
Proof.
  unfold file_name. destruct (rev (comps p)) as [|c l] eqn:E; [discriminate|]. destruct (eqb c (s2t "..")); [discriminate|]. intros X. injection X as ->.
  assert (C : comps p = rev l ++ [n]) by (rewrite <- (rev_involutive (comps p)), E; reflexivity).
  exists (mkPath (rooted p) (rev l)). assert (D : directory p (mkPath (rooted p) (rev l))) by (split; [reflexivity | exists n; exact C]).
  split; [apply directory_parent, D|]. split; [exact D | exact C].
Qed.
Lemma find_plugin_spec cwd p dll f d0 it : directory (prf_path p) d0 -> s2t dll <> s2t ".." -> (forall q d, parent q = Some d -> f q <> None) ->
  (find_plugin cwd p dll f it = Ret None /\ forall kv d, In kv it -> ~ plugin_in cwd (prf_path p) dll d (snd kv)) \/
  (exists kv d q r, In kv it /\ resolves cwd (prf_path p) (snd kv) q /\ below d [s2t dll] q /\ f q = Some r /\ find_plugin cwd p dll f it = Ret (Some r)).
Proof.
  intros D ND NF. induction it as [|[k v] it IH]; [left; split; [reflexivity | intros kv d []]|]. cbn [find_plugin].
  destruct (resolves_total cwd (prf_path p) v d0 D) as [q R]. rewrite (resolves_ok cwd p v q d0 D R). cbn [obind].
  destruct (eqb (file_name q) (Some (s2t dll))) eqn:E.
  - rewrite eqb_true in E. destruct (file_name_inv _ _ E) as [d [P [[RD _] C]]]. destruct (f q) as [r|] eqn:F; [|exfalso; exact (NF q d P F)].
    right. exists (k, v), d, q, r. split; [left; reflexivity|]. cbn [snd]. split; [exact R|]. split; [split; [symmetry; exact RD | exact C]|]. auto.
  - destruct IH as [[IH N]|[kv [d [q' [r [I [R' [B [F IH]]]]]]]]].
    + left. split; [exact IH|]. intros kv d [<-|I]; [|exact (N kv d I)]. intros [q' [R' [B1 B2]]]. cbn [snd] in R'.
      assert (q' = q) as -> by (eapply resolves_fun; eassumption). rewrite eqb_false in E. apply E.
      apply (file_name_spec q d); [symmetry; exact B1 | exact B2 | exact ND].
    + right. exists kv, d, q', r. split; [right; exact I|]. auto.
Qed.

(** ** The last setting *)
Lemma rev_get es cat key : get (cat, key) (rev (pairs_of es)) = match find (fun e => eqb (e_category e) cat && eqb (e_key e) key) (rev es) with
  | Some e => Some (e_value e) | None => None end.
Proof.
  unfold pairs_of. rewrite <- map_rev. generalize (rev es). intros l. induction l as [|e l IH]; [reflexivity|]. cbn [map get find].
  destruct (eq_dec (cat, key) (e_category e, e_key e)) as [E|E].
  - injection E as -> ->. rewrite !eqb_refl. reflexivity.
  - destruct (eqb (e_category e) cat) eqn:E1; [|exact IH]. destruct (eqb (e_key e) key) eqn:E2; [|exact IH].
    rewrite eqb_true in E1, E2. subst. contradiction E. reflexivity.
Qed.
Lemma get_last es cat key val : get (cat, key) (of_list (pairs_of es)) = Some val <-> last_setting es cat key val.
Proof.
  rewrite get_of_list. unfold last_setting. induction es as [|e es IH] using rev_ind.
  - split; [discriminate|]. intros [pre [post [E _]]]. destruct pre; discriminate E.
  - unfold pairs_of in *. rewrite map_app, rev_app_distr. cbn [map rev app get].
    destruct (eq_dec (cat, key) (e_category e, e_key e)) as [E|E].
    + injection E as -> ->. split.
      * intros X. injection X as <-. exists es, []. split; [destruct e; reflexivity | intros e' []].
      * intros [pre [post [X N]]]. destruct post as [|e' post] using rev_ind.
        -- apply app_inj_tail in X. destruct X as [_ ->]. reflexivity.
        -- clear IHpost. exfalso. rewrite app_comm_cons, app_assoc in X. apply app_inj_tail in X. destruct X as [_ ->].
           apply (N e'); [apply in_app_iff; right; left; reflexivity | auto].
    + rewrite IH. split; intros [pre [post [X N]]].
      * exists pre, (post ++ [e]). subst es. split; [rewrite <- app_assoc; reflexivity|]. intros e' I. apply in_app_iff in I. destruct I as [I|[<-|[]]]; [apply N, I|].
        intros [<- <-]. contradiction E. reflexivity.
      * destruct post as [|e' post] using rev_ind.
        -- apply app_inj_tail in X. destruct X as [_ ->]. contradiction E. reflexivity.
        -- clear IHpost. rewrite app_comm_cons, app_assoc in X. apply app_inj_tail in X. destruct X as [-> ->]. exists pre, post. split; [reflexivity|].
           intros e I. apply N, in_app_iff. left. exact I.
Qed.
Lemma prf_unique t es es' : prf_file t es -> es <> [] -> prf_file t es' -> es' = es.
Proof.
  intros F NE F'. destruct es' as [|e' es'].
  - exfalso. assert (S : spaces t) by (inversion F'; assumption). destruct (file_at t es F) as [w [r [-> [W A]]]].
    apply Forall_app in S. destruct S as [_ S]. apply at_entry_stops in A as A'. destruct A as [|l e L|l e r es'' L _]; [contradiction NE; reflexivity|..].
    + apply line_nonnil in L. destruct S as [|x l X _]; [contradiction L; reflexivity | unfold stops in A'; congruence].
    + destruct l as [|x l]; [apply line_nonnil in L; contradiction L; reflexivity|]. cbn [app] in S. inversion S; subst. unfold stops in A'. cbn [app] in A'. congruence.
  - destruct (prf_ok t es F NE) as [ts [W E]]. destruct (prf_ok t _ F' ltac:(discriminate)) as [ts' [W' E']]. rewrite E in E'. injection E' as E'.
    apply app_inj_tail in E'. destruct E' as [<- _]. revert W W'. clear. revert ts. generalize (e' :: es'). clear. intros es2 ts. revert es ts. rename es2 into es'.
    induction es' as [|e' es' IH]; intros es ts W W'; inversion W' as [|? ? ? ? [c ->] W1']; subst; inversion W as [|? ? ? ? [c' X] W1]; subst; [reflexivity|].
    f_equal; [|eapply IH; eassumption]. destruct e', x. unfold setting_tree in X. cbn in X. injection X as _ -> -> ->. reflexivity.
Qed.
Lemma resolves_rooted cwd file v q d : directory file d -> rooted cwd = true -> rooted d = true -> resolves cwd file v q -> rooted q = true.
Proof.
  intros D RC RD [s rest l d' q' T S N L D' [B _]|s u l q' T S N L [B _]|s rest l q' T S L [B _]]; rewrite B; auto.
  apply directory_parent in D. apply directory_parent in D'. congruence.
Qed.
Lemma join_abs a q : rooted q = true -> join a q = q.
Proof. unfold join. intros ->. reflexivity. Qed.
Lemma below_parent d n q : below d [n] q -> parent q = Some d.
Proof. intros [B1 B2]. apply directory_parent. split; [auto | exists n; exact B2]. Qed.
Lemma squawks_spec cwd p dir it d : directory (prf_path p) dir -> rooted cwd = true -> rooted dir = true -> Permutation it (settings p) ->
  (forall kv d', In kv (settings p) -> plugin_in cwd (prf_path p) "Squawks.dll" d' (snd kv) -> d' = d) ->
  ((exists kv, In kv (settings p) /\ plugin_in cwd (prf_path p) "Squawks.dll" d (snd kv)) ->
     exists q, below d [s2t "squawks.json"] q /\ squawks_path cwd p it = Ret (Some q)) /\
  ((forall kv, In kv (settings p) -> ~ plugin_in cwd (prf_path p) "Squawks.dll" d (snd kv)) -> squawks_path cwd p it = Ret None).
Proof.
  intros D RC RD P US. pose proof (directory_parent _ _ D) as PD.
  assert (IP : forall kv, In kv it <-> In kv (settings p)) by (intros kv; split; apply Permutation_in; [exact P | apply Permutation_sym, P]).
  unfold squawks_path.
  destruct (find_plugin_spec cwd p "Squawks.dll" (fun q => option_map (fun d => join d (pth "squawks.json")) (parent q)) dir it D) as [[E N]|[kv' [d' [q [r [I' [R [B [F E]]]]]]]]].
  - discriminate.
  - intros q d' E. rewrite E. discriminate.
  - rewrite E. split; [|reflexivity]. intros [kv [I PL]]. exfalso. exact (N kv d (proj2 (IP kv) I) PL).
  - assert (PL : plugin_in cwd (prf_path p) "Squawks.dll" d' (snd kv')) by (exists q; auto). apply IP in I'.
    assert (d' = d) as -> by (apply (US kv'); assumption). split; [|intros N; exfalso; exact (N kv' I' PL)]. intros _.
    rewrite (below_parent _ _ _ B) in F. cbn [option_map] in F. injection F as <-.
    exists (join d (pth "squawks.json")). split; [split; reflexivity|]. rewrite E. walk. unfold in_prf_dir. rewrite PD. walk. rewrite join_abs; [reflexivity|].
    change (rooted d = true). destruct B as [B _]. rewrite <- B. exact (resolves_rooted _ _ _ _ _ D RC RD R).
Qed.
Lemma topsky_spec cwd p dir it d : directory (prf_path p) dir -> rooted cwd = true -> rooted dir = true -> Permutation it (settings p) ->
  (forall kv d', In kv (settings p) -> plugin_in cwd (prf_path p) "TopSky.dll" d' (snd kv) -> d' = d) ->
  ((exists kv, In kv (settings p) /\ plugin_in cwd (prf_path p) "TopSky.dll" d (snd kv)) -> topsky_path cwd p it = Ret (Some d)) /\
  ((forall kv, In kv (settings p) -> ~ plugin_in cwd (prf_path p) "TopSky.dll" d (snd kv)) -> topsky_path cwd p it = Ret None).
Proof.
  intros D RC RD P US. pose proof (directory_parent _ _ D) as PD.
  assert (IP : forall kv, In kv it <-> In kv (settings p)) by (intros kv; split; apply Permutation_in; [exact P | apply Permutation_sym, P]).
  unfold topsky_path. destruct (find_plugin_spec cwd p "TopSky.dll" parent dir it D) as [[E N]|[kv' [d' [q [r [I' [R [B [F E]]]]]]]]].
  - discriminate.
  - intros q d' E. rewrite E. discriminate.
  - rewrite E. split; [|reflexivity]. intros [kv [I PL]]. exfalso. exact (N kv d (proj2 (IP kv) I) PL).
  - assert (PL : plugin_in cwd (prf_path p) "TopSky.dll" d' (snd kv')) by (exists q; auto). apply IP in I'.
    assert (d' = d) as -> by (apply (US kv'); assumption). split; [|intros N; exfalso; exact (N kv' I' PL)]. intros _.
    rewrite (below_parent _ _ _ B) in F. injection F as <-. rewrite E. walk. unfold in_prf_dir. rewrite PD. walk. rewrite join_abs; [reflexivity|].
    destruct B as [B _]. rewrite <- B. exact (resolves_rooted _ _ _ _ _ D RC RD R).
Qed.
