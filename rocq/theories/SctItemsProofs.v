(** Proofs about the drawable .sct items. *)
From Verif Require Import Base Num Float Colours Locations Settings Maps MapsFiling SctData SctItems SpecSctItems.

(** * Coloured lines *)
Lemma point_eqb_same p p' : point_eqb p p' = true <-> same_point p p'.
Proof. unfold point_eqb, same_point, feqb, px, py. apply andb_true_iff. Qed.
Lemma point_eqb_diff p p' : point_eqb p p' = false <-> ~ same_point p p'.
Proof. rewrite <- point_eqb_same. destruct (point_eqb p p'); split; congruence. Qed.

Lemma dedup_from_ok l : forall p, collapsed (p :: l) (dedup_from p l) /\ dedup_from p l <> [].
Proof.
  induction l as [|p' l IH]; intros p; cbn [dedup_from]; [split; [constructor | discriminate]|].
  destruct (point_eqb p p') eqn:E.
  - split; [|apply IH]. apply col_same; [apply point_eqb_same, E | apply IH].
  - split; [|discriminate]. apply col_new; [apply point_eqb_diff, E | apply IH].
Qed.
Lemma collapsed_fun l : forall r r', collapsed l r -> collapsed l r' -> r = r'.
Proof.
  assert (G : forall r, collapsed l r -> forall r', collapsed l r' -> r = r').
  { induction 1; intros r0 HX; inversion HX; subst; try reflexivity; try contradiction; auto.
    f_equal. auto. }
  intros r r' A B. eapply G; eassumption.
Qed.
Lemma resolves_ok c l : resolves c l (filter_map (loc_ c) l).
Proof. induction l as [|x l IH]; cbn [filter_map]; [constructor|]. destruct (loc_ c x) eqn:E; [apply res_take | apply res_skip]; assumption. Qed.
Lemma resolves_fun c l r : resolves c l r -> r = filter_map (loc_ c) l.
Proof. induction 1 as [|x l r E _ IH|x p l r E _ IH]; cbn [filter_map]; [reflexivity|..]; rewrite E; [exact IH | f_equal; exact IH]. Qed.

Definition conv_line (c : sct_ctx) (pts : list location) : option (list point) :=
  let line := dedup (filter_map (loc_ c) pts) in if is_nil line then None else Some line.

Lemma drawn_lines_ok c ls : drawn_lines c ls (filter_map (conv_line c) ls) /\ Forall (fun l => l <> []) (filter_map (conv_line c) ls).
Proof.
  induction ls as [|l ls [IH F]]; cbn [filter_map]; [split; constructor|].
  destruct (conv_line c l) as [line|] eqn:CL; revert CL; unfold conv_line at 1;
  pose proof (resolves_ok c l) as R; destruct (filter_map (loc_ c) l) as [|p pts] eqn:E.
  1,3: cbn; intros X; try discriminate X.
  1: split; [apply dl_drop; assumption | exact F].
  all: cbn [dedup]; destruct (dedup_from_ok pts p) as [C N]; destruct (dedup_from p pts) as [|x r] eqn:D; [congruence|].
  all: cbn [is_nil]; intros X; try discriminate X.
  injection X as <-. split; [|constructor; [discriminate | exact F]].
  eapply dl_keep; [exact R | discriminate | exact C | exact IH].
Qed.
Lemma drawn_lines_fun c ls out : drawn_lines c ls out -> out = filter_map (conv_line c) ls.
Proof.
  induction 1 as [|l ls out R _ IH|l ls pts line out R N C _ IH]; cbn [filter_map]; [reflexivity|..].
  - unfold conv_line at 1. rewrite <- (resolves_fun _ _ _ R). cbn. exact IH.
  - unfold conv_line at 1. rewrite <- (resolves_fun _ _ _ R). destruct pts as [|p pts]; [congruence|]. cbn [dedup].
    destruct (dedup_from_ok pts p) as [C' N']. rewrite (collapsed_fun _ _ _ C C').
    destruct (dedup_from p pts); [congruence|]. cbn [is_nil]. f_equal. exact IH.
Qed.

Lemma from_lines_spec c g x :
  (from_lines c g = Some x <-> drawn_as c g x) /\ (from_lines c g = None <-> not_drawn c g).
Proof.
  unfold from_lines, drawn_as, not_drawn. change (filter_map _ (lg_lines g)) with (filter_map (conv_line c) (lg_lines g)).
  destruct (drawn_lines_ok c (lg_lines g)) as [D F].
  set (lines := filter_map (conv_line c) (lg_lines g)) in *.
  assert (E : forallb is_nil lines = is_nil lines).
  { destruct lines as [|l ls]; [reflexivity|]. inversion F; subst. cbn. destruct l; [congruence | reflexivity]. }
  cbv zeta. rewrite E.
  set (col := unwrap_or (and_then (lg_colour g) (lookup_ c)) (sid_ c)).
  assert (COL : forall k, (exists n, lg_colour g = Some n /\ lookup_ c n = Some k) \/
     ((forall n, lg_colour g = Some n -> lookup_ c n = None) /\ k = sid_ c) <-> k = col).
  { intros k. unfold col. destruct (lg_colour g) as [n|]; cbn [and_then].
    - destruct (lookup_ c n) as [k'|] eqn:L; cbn [unwrap_or].
      + split; [|intros ->; left; eauto]. intros [[n' [E1 E2]]|[N _]]; [congruence|]. rewrite (N n eq_refl) in L. discriminate.
      + split; [|intros ->; right; split; [congruence | reflexivity]]. intros [[n' [E1 E2]]|[_ ->]]; congruence.
    - cbn [unwrap_or]. split; [|intros ->; right; split; [discriminate | reflexivity]]. intros [[n' [E1 _]]|[_ ->]]; congruence. }
  clearbody col.
  assert (FUN : forall out, drawn_lines c (lg_lines g) out -> out = lines) by (intros out; apply drawn_lines_fun).
  clearbody lines. split.
  - destruct lines as [|l ls]; cbn [is_nil].
    + split; [discriminate|]. intros [D' [N _]]. apply FUN in D'. contradiction.
    + split.
      * intros X; injection X as <-. cbn [cl_colour cl_lines]. split; [exact D|]. split; [discriminate|]. apply COL. reflexivity.
      * intros [D' [N C]]. apply COL in C. apply FUN in D'. destruct x as [xc xl]. cbn in *.
        rewrite C, D'. reflexivity.
  - destruct lines as [|l ls]; cbn [is_nil].
    + split; [intros _; exact D | reflexivity].
    + split; [discriminate|]. intros D'. apply FUN in D'. discriminate D'.
Qed.

Lemma values_of_app {K V} `{EqDec K} (k : K) (a b : list (K * V)) : values_of k (a ++ b) = values_of k a ++ values_of k b.
Proof. unfold values_of. rewrite filter_app, map_app. reflexivity. Qed.

Lemma drawings_values c l k : mget_vec k (drawings c l) = filter_map (from_lines c) (groups_of k l).
Proof.
  unfold drawings. rewrite mget_vec_push_all. cbn [mget_vec get app].
  assert (FM : forall a b, filter_map (from_lines c) (a ++ b) = filter_map (from_lines c) a ++ filter_map (from_lines c) b).
  { induction a as [|x a IH]; intros b; cbn [app filter_map]; [reflexivity|]. rewrite IH. destruct (from_lines c x); reflexivity. }
  induction l as [|d l IH]; cbn [flat_map groups_of]; [reflexivity|]. rewrite values_of_app, IH.
  assert (G : values_of k (filter_map (fun g => option_map (fun x => (dr_name d, x)) (from_lines c g)) (dr_groups d)) =
              if eq_dec (dr_name d) k then filter_map (from_lines c) (dr_groups d) else []).
  { induction (dr_groups d) as [|g gs IHg]; cbn [filter_map]; [destruct (eq_dec _ _); reflexivity|].
    destruct (from_lines c g) as [x|]; cbn [option_map]; [|exact IHg].
    unfold values_of in *. cbn [filter fst]. unfold eqb at 1. destruct (eq_dec k (dr_name d)) as [->|ne].
    - cbn [map snd]. rewrite IHg. destruct (eq_dec (dr_name d) (dr_name d)); [reflexivity | congruence].
    - rewrite IHg. destruct (eq_dec (dr_name d) k); [congruence | reflexivity]. }
  rewrite G. destruct (eq_dec (dr_name d) k); [rewrite FM|]; reflexivity.
Qed.

Lemma drawn_groups_ok c gs : drawn_groups c gs (filter_map (from_lines c) gs).
Proof.
  induction gs as [|g gs IH]; cbn [filter_map]; [constructor|]. destruct (from_lines c g) as [x|] eqn:E.
  - apply dg_keep; [apply from_lines_spec, E | exact IH].
  - apply dg_drop; [|exact IH]. apply (from_lines_spec c g (mkColouredLines (sid_ c) [])), E.
Qed.
Lemma drawings_spec c l k : drawn_groups c (groups_of k l) (mget_vec k (drawings c l)).
Proof. rewrite drawings_values. apply drawn_groups_ok. Qed.

(** * Airways *)
Lemma airway_lines_starts c l : airway_lines c l = map (fun p => (p, p)) (starts c l).
Proof.
  induction l as [|a l IH]; cbn [airway_lines filter_map starts]; [reflexivity|].
  unfold airway_lines in IH. rewrite IH. destruct (loc_ c (aw_start a)); reflexivity.
Qed.

Lemma line_hash_point fmt p : line_hash fmt (p, p) = coord_hash fmt p ++ coord_hash fmt p.
Proof. unfold line_hash, coord_hash. cbn [fst snd]. rewrite <- !app_assoc. reflexivity. Qed.
Lemma double_inj (a b : text) : a ++ a = b ++ b -> a = b.
Proof.
  intros E. assert (L : List.length a = List.length b).
  { apply (f_equal (@List.length N)) in E. rewrite !app_length in E. lia. }
  apply (f_equal (firstn (List.length a))) in E. rewrite firstn_app, Nat.sub_diag, firstn_all in E.
  rewrite L, firstn_app, Nat.sub_diag, firstn_all in E. cbn in E. rewrite !app_nil_r in E. exact E.
Qed.
Lemma line_hash_inj fmt p p' : line_hash fmt (p, p) = line_hash fmt (p', p') <-> coord_hash fmt p = coord_hash fmt p'.
Proof. rewrite !line_hash_point. split; [apply double_inj | intros ->; reflexivity]. Qed.

Lemma mem_In x l : mem x l = true <-> In x l.
Proof.
  unfold mem. rewrite existsb_exists. split.
  - intros [y [I E]]. rewrite eqb_true in E. subst y. exact I.
  - intros I. exists x. split; [exact I | apply eqb_refl].
Qed.

Lemma adj_values fmt k ps :
  values_of k (flat_map (fun l : point * point => [(coord_hash fmt (fst l), l); (coord_hash fmt (snd l), l)]) (map (fun p => (p, p)) ps)) =
  flat_map (fun p => if eqb k (coord_hash fmt p) then [(p, p); (p, p)] else []) ps.
Proof.
  induction ps as [|p ps IH]; [reflexivity|]. cbn [map flat_map]. rewrite values_of_app, IH. f_equal.
  unfold values_of. cbn [filter fst snd]. destruct (eqb k (coord_hash fmt p)); reflexivity.
Qed.

Lemma build_degenerate fmt fuel p visited ps :
  (forall q, In q ps -> coord_hash fmt q = coord_hash fmt p -> In (line_hash fmt (q, q)) visited) ->
  build_linestring fmt fuel p visited
    (mpush_all (flat_map (fun l : point * point => [(coord_hash fmt (fst l), l); (coord_hash fmt (snd l), l)]) (map (fun p => (p, p)) ps)) [])
  = Some ([p], visited).
Proof.
  intros H.
  assert (F : find (fun l => negb (mem (line_hash fmt l) visited)) (mget_vec (coord_hash fmt p)
     (mpush_all (flat_map (fun l : point * point => [(coord_hash fmt (fst l), l); (coord_hash fmt (snd l), l)]) (map (fun p => (p, p)) ps)) [])) = None).
  { rewrite mget_vec_push_all. cbn [mget_vec get app]. rewrite adj_values.
    match goal with |- ?x = None => destruct x as [l|] eqn:E end; [|reflexivity].
    apply find_some in E. destruct E as [I E]. apply in_flat_map in I. destruct I as [q [I J]].
    destruct (eqb (coord_hash fmt p) (coord_hash fmt q)) eqn:K; [|destruct J]. rewrite eqb_true in K.
    assert (l = (q, q)) as -> by (destruct J as [<-|[<-|[]]]; reflexivity).
    apply negb_true_iff in E. exfalso. assert (M : mem (line_hash fmt (q, q)) visited = true).
    { apply mem_In, H; [exact I | symmetry; exact K]. }
    congruence. }
  destruct fuel; cbn [build_linestring]; rewrite F; reflexivity.
Qed.

Lemma airway_spec fmt c awys : airway_to_multi_line_string fmt c awys =
  Some (map (fun p => [p]) (firsts (coord_hash fmt) [] (starts c awys))).
Proof.
  unfold airway_to_multi_line_string. rewrite airway_lines_starts.
  set (ps := starts c awys). set (adj := mpush_all _ []). set (n := List.length _).
  assert (G : forall todo acc seen visited,
    (forall q, In (line_hash fmt (q, q)) visited <-> In (coord_hash fmt q) seen) -> incl todo ps ->
    exists v, fold_left (fun st l => match st with
      | None => None
      | Some (acc, visited) => if mem (line_hash fmt l) visited then Some (acc, visited)
          else match build_linestring fmt n (fst l) (line_hash fmt l :: visited) adj with
               | Some (ls, visited) => Some (acc ++ [ls], visited) | None => None end end)
      (map (fun p => (p, p)) todo) (Some (acc, visited)) =
    Some (acc ++ map (fun p => [p]) (firsts (coord_hash fmt) seen todo), v)).
  { induction todo as [|p todo IH]; intros acc seen visited V INC; cbn [map fold_left firsts].
    - rewrite app_nil_r. eauto.
    - destruct (in_dec eq_dec (coord_hash fmt p) seen) as [I|I].
      + assert (M : mem (line_hash fmt (p, p)) visited = true) by (apply mem_In, V, I).
        rewrite M. apply IH; [exact V|]. intros x X. apply INC. right. exact X.
      + assert (M : mem (line_hash fmt (p, p)) visited = false).
        { destruct (mem (line_hash fmt (p, p)) visited) eqn:M; [|reflexivity]. exfalso. apply I, V, mem_In, M. }
        rewrite M. cbn [fst]. unfold adj. rewrite build_degenerate.
        * cbn [map]. destruct (IH (acc ++ [[p]]) (coord_hash fmt p :: seen) (line_hash fmt (p, p) :: visited)) as [v E].
          -- intros q. cbn [In]. rewrite V, line_hash_inj. reflexivity.
          -- intros x X. apply INC. right. exact X.
          -- exists v. unfold adj in E. rewrite E, <- app_assoc. reflexivity.
        * intros q _ K. left. apply line_hash_inj. congruence. }
  destruct (G ps [] [] []) as [v E]; [intros q; reflexivity | apply incl_refl|].
  rewrite E. reflexivity.
Qed.

Lemma airways_of_values k l : values_of k (map (fun a => (aw_des a, a)) l) = airways_of k l.
Proof.
  unfold values_of. induction l as [|a l IH]; cbn [map filter fst airways_of]; [reflexivity|].
  unfold eqb at 1. destruct (eq_dec k (aw_des a)) as [->|ne].
  - cbn [map snd]. rewrite IH. destruct (eq_dec (aw_des a) (aw_des a)); [reflexivity | congruence].
  - rewrite IH. destruct (eq_dec (aw_des a) k); [congruence | reflexivity].
Qed.

Lemma all_some_map {A B} (f : A -> B) l : all_some (fun x => Some (f x)) l = Some (map f l).
Proof. induction l as [|x l IH]; cbn; [reflexivity|]. rewrite IH. reflexivity. Qed.
Lemma all_some_ext {A B} (f g : A -> option B) l : (forall x, f x = g x) -> all_some f l = all_some g l.
Proof. intros H. induction l as [|x l IH]; cbn; [reflexivity|]. rewrite H, IH. reflexivity. Qed.

Lemma values_of_unique {K V} `{EqDec K} (k : K) (m : list (K * V)) : NoDup (keys m) ->
  values_of k m = match get k m with Some v => [v] | None => [] end.
Proof.
  unfold values_of. induction m as [|[k' v] m IH]; intros ND; [reflexivity|]. cbn [filter fst get].
  cbn [keys map fst] in ND. inversion ND as [|? ? NI ND']; subst. specialize (IH ND').
  unfold eqb at 1. destruct (eq_dec k k') as [->|ne]; [|exact IH].
  cbn [map snd]. f_equal. rewrite IH. destruct (get k' m) eqn:E; [|reflexivity].
  exfalso. apply NI. eapply get_Some_key, E.
Qed.

Lemma airways_spec fmt c l : exists r, airways fmt c l = Some r /\ forall k,
  mget_vec k r = drawn_airway fmt c (airways_of k l).
Proof.
  unfold drawn_airway. change (point_text fmt) with (coord_hash fmt). unfold airways. set (grouped := mpush_all _ []).
  rewrite (all_some_ext _ (fun e => Some (fst e, map (fun p => [p]) (firsts (coord_hash fmt) [] (starts c (snd e)))))).
  2:{ intros x. rewrite airway_spec. reflexivity. }
  rewrite all_some_map. cbn [option_map]. eexists. split; [reflexivity|]. intros k.
  rewrite mget_vec_push_all. cbn [mget_vec get app].
  assert (ND : NoDup (keys grouped)) by (apply NoDup_mpush_all; constructor).
  rewrite values_of_unique.
  2:{ unfold keys. rewrite map_map. cbn [fst]. exact ND. }
  assert (GM : forall m : list (text * list sct_airway), get k (map (fun x => (fst x, map (fun p => [p]) (firsts (coord_hash fmt) [] (starts c (snd x))))) m) =
    option_map (fun a => map (fun p => [p]) (firsts (coord_hash fmt) [] (starts c a))) (get k m)).
  { induction m as [|[k' v] m IH]; cbn [map get fst snd]; [reflexivity|]. destruct (eq_dec k k'); [reflexivity | exact IH]. }
  rewrite GM. rewrite <- airways_of_values.
  pose proof (mget_vec_push_all k (map (fun a => (aw_des a, a)) l) []) as E. cbn [mget_vec get app] in E. fold grouped in E.
  rewrite <- E. unfold mget_vec. destruct (get k grouped) as [v|] eqn:G; cbn [option_map]; [|reflexivity].
  destruct v as [|a v]; [|reflexivity]. exfalso. clear - G.
  assert (H : forall (es : list (text * sct_airway)) m, (forall k v, get k m = Some v -> v <> []) ->
             forall k v, get k (mpush_all es m) = Some v -> v <> []).
  { induction es as [|[k0 a] es IH]; intros m A; [exact A|]. apply IH. intros k1 v1 E. unfold mpush in E. cbn [fst snd] in E.
    rewrite get_put in E. destruct (eq_dec k1 k0); [|eapply A, E]. injection E as <-. destruct (mget_vec k0 m); discriminate. }
  eapply (H _ []); [|exact G|reflexivity]. intros ? ? X. discriminate X.
Qed.

Lemma by_name {A} (name : A -> text) (of : text -> list A -> list A) k l :
  (forall k, of k [] = []) -> (forall k a l, of k (a :: l) = if eq_dec (name a) k then a :: of k l else of k l) ->
  mget_vec k (mpush_all (map (fun a => (name a, a)) l) []) = of k l.
Proof.
  intros H0 H1. rewrite mget_vec_push_all. cbn [mget_vec get app]. unfold values_of.
  induction l as [|a l IH]; cbn [map filter fst]; [symmetry; apply H0|]. rewrite H1.
  unfold eqb at 1. destruct (eq_dec k (name a)) as [->|ne].
  - cbn [map snd]. rewrite IH. destruct (eq_dec (name a) (name a)); [reflexivity | congruence].
  - rewrite IH. destruct (eq_dec (name a) k); [congruence | reflexivity].
Qed.
Lemma from_sct_spec fmt c s : exists it, from_sct fmt c s = Some it /\ forall k,
  drawn_groups c (groups_of k (sc_sids s)) (mget_vec k (si_sids it)) /\
  drawn_groups c (groups_of k (sc_stars s)) (mget_vec k (si_stars it)) /\
  drawn_groups c (groups_of k (sc_artccs_high s)) (mget_vec k (si_artccs_high it)) /\
  drawn_groups c (groups_of k (sc_artccs s)) (mget_vec k (si_artccs it)) /\
  drawn_groups c (groups_of k (sc_artccs_low s)) (mget_vec k (si_artccs_low it)) /\
  drawn_groups c (groups_of k (sc_geo s)) (mget_vec k (si_geo it)) /\
  mget_vec k (si_regions it) = regions_of k (sc_regions s) /\
  mget_vec k (si_labels it) = labels_of k (sc_labels s).
Proof.
  unfold from_sct.
  destruct (airways_spec fmt c (sc_high_airways s)) as [h [-> _]].
  destruct (airways_spec fmt c (sc_low_airways s)) as [l [-> _]].
  eexists. split; [reflexivity|]. intros k.
  cbn [si_sids si_stars si_artccs_high si_artccs si_artccs_low si_geo si_regions si_labels].
  repeat apply conj; try apply drawings_spec.
  - apply (by_name rg_name regions_of); reflexivity.
  - apply (by_name sb_name labels_of); reflexivity.
Qed.
