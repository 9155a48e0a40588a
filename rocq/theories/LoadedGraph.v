(** Proofs for the positive part of C71: ranges and keys of the airway graph of a file. *)
From Coq Require Import ZifyBool ZifyN ZifyNat.
From Verif Require Import Base Num Float Trees SpecJson SpecLoaded.
From Verif Require Import Airways AirwayTxt AdaptationProofs AdaptationLoads.
Local Open Scope string_scope.
Local Open Scope list_scope.

Lemma parse_uint_range b m s n : parse_uint b m s = Some n -> (n <= m)%N.
Proof.
  unfold parse_uint. intros H. repeat match type of H with context [match ?x with _ => _ end] => destruct x eqn:? end; try discriminate; injection H as <-; lia.
Qed.
Lemma parse_u32_range s n : parse_u32 s = Some n -> u32_ok n.
Proof. intros H. apply parse_uint_range in H. unfold u32_ok, u32_max in *. lia. Qed.
Lemma parse_int_range lo hi s n : parse_int lo hi s = Some n -> (lo <= n <= hi)%Z.
Proof.
  unfold parse_int. intros H. repeat match type of H with context [match ?x with _ => _ end] => destruct x eqn:? end; try discriminate; injection H as <-; lia.
Qed.
Lemma parse_i32_range s n : parse_i32 s = Some n -> i32_ok n.
Proof. intros H. apply parse_int_range in H. unfold i32_ok, i32_min, i32_max in *. lia. Qed.
Lemma parse_i64_range s n : parse_i64 s = Some n -> i64_ok n.
Proof. intros H. apply parse_int_range in H. unfold i64_ok. lia. Qed.

Definition edge_in (g : graph) (e : edge) : Prop := (e_to e < List.length (fixes g))%nat /\ when u32_ok (e_min e) /\ when u32_ok (e_max e).
Definition gfix_in (g : graph) (f : gfix) : Prop :=
  entries (Forall (edge_in g)) (g_edges f) /\ Forall (fun k => k < List.length (airway_name_by_id g))%nat (map fst (g_edges f)).
Definition graph_in (g : graph) : Prop :=
  Forall (gfix_in g) (fixes g) /\ multi (fun i => i < List.length (fixes g))%nat (fix_id_by_name g) /\
  entries (fun i => i < List.length (airway_name_by_id g))%nat (airway_id_by_name g).
(** more fixes and airways do no harm *)
Definition more (g g' : graph) : Prop :=
  (List.length (fixes g) <= List.length (fixes g'))%nat /\ (List.length (airway_name_by_id g) <= List.length (airway_name_by_id g'))%nat.
Lemma entries_impl {K A} (P Q : A -> Prop) (m : list (K * A)) : (forall a, P a -> Q a) -> entries P m -> entries Q m.
Proof. intros H [N F]. split; [exact N|]. eauto. Qed.
Lemma edge_more g g' e : more g g' -> edge_in g e -> edge_in g' e.
Proof. intros [M _] [A B]. split; [lia | exact B]. Qed.
Lemma gfix_more g g' f : more g g' -> gfix_in g f -> gfix_in g' f.
Proof.
  intros M [A B]. split.
  - revert A. apply entries_impl. intros l. apply Forall_impl. intros e. apply edge_more, M.
  - revert B. apply Forall_impl. intros k. cbn beta. destruct M. lia.
Qed.
Lemma put_forall {K V} `{EqDec K} (P : V -> Prop) (k : K) v m : P v -> (forall k a, In (k, a) m -> P a) -> forall k' a, In (k', a) (put k v m) -> P a.
Proof.
  intros Hv Hm. induction m as [|[k1 v1] m IH]; cbn [put]; intros k' a I.
  - destruct I as [I|[]]. injection I as _ <-. exact Hv.
  - assert (Hm' : forall k a, In (k, a) m -> P a) by (intros k0 a0 J; apply (Hm k0); right; exact J).
    destruct (eq_dec k k1); destruct I as [I|I]; try (injection I as _ <-); eauto. apply (Hm k1). left. reflexivity.
Qed.
Lemma put_entries {K V} `{EqDec K} (P : V -> Prop) (k : K) v m : P v -> entries P m -> entries P (put k v m).
Proof. intros Hv [N F]. split; [apply NoDup_put, N | exact (put_forall P k v m Hv F)]. Qed.
Lemma put_new_entries {K V} `{EqDec K} (P : V -> Prop) (k : K) v m : P v -> entries P m -> entries P (put_new k v m).
Proof. unfold put_new. destruct (get k m); [auto | apply put_entries]. Qed.
Lemma put_all_entries {K V} `{EqDec K} (P : V -> Prop) (l : list (K * V)) : Forall (fun e => P (snd e)) l -> forall m, entries P m -> entries P (put_all l m).
Proof.
  induction 1 as [|[k v] l Pv _ IH]; intros m M; [exact M|]. apply IH, put_entries; assumption.
Qed.
Lemma nil_entries {K V} (P : V -> Prop) : entries P (@nil (K * V)).
Proof. split; [constructor | intros k a []]. Qed.
Lemma of_list_entries {K V} `{EqDec K} (P : V -> Prop) (l : list (K * V)) : Forall (fun e => P (snd e)) l -> entries P (of_list l).
Proof. intros F. apply put_all_entries; [exact F | apply nil_entries]. Qed.
Lemma mpush_entries {K V} `{EqDec K} (P : V -> Prop) (k : K) v m : P v -> entries (Forall P) m -> entries (Forall P) (mpush k v m).
Proof.
  intros Hv M. apply put_entries; [|exact M]. apply Forall_app. split; [|constructor; [exact Hv | constructor]].
  unfold mget_vec. destruct (get k m) eqn:G; [|constructor]. apply get_In in G. exact (proj2 M _ _ G).
Qed.
Lemma mpush_all_entries {K V} `{EqDec K} (P : V -> Prop) (l : list (K * V)) : Forall (fun e => P (snd e)) l -> forall m, entries (Forall P) m -> entries (Forall P) (mpush_all l m).
Proof.
  induction 1 as [|[k v] l Pv _ IH]; intros m M; [exact M|]. apply IH, mpush_entries; assumption.
Qed.
Lemma get_entries {K V} `{EqDec K} (P : V -> Prop) (k : K) m a : entries P m -> get k m = Some a -> P a.
Proof. intros [_ F] G. apply get_In in G. exact (F _ _ G). Qed.
Lemma keys_entries {K V W} (f : V -> W) (P : W -> Prop) (m : list (K * V)) : NoDup (keys m) -> (forall k a, In (k, a) m -> P (f a)) ->
  entries P (map (fun '(k, a) => (k, f a)) m).
Proof.
  intros N F. split.
  - change (NoDup (keys (map (fun '(k, a) => (k, (fun _ => f) k a)) m))). rewrite (keys_map_val (fun _ : K => f)). exact N.
  - intros k a I. apply in_map_iff in I. destruct I as [[k' a'] [E I]]. injection E as <- <-. eauto.
Qed.

Lemma update_nth_length {A} (f : A -> A) l : forall i, List.length (update_nth i f l) = List.length l.
Proof. induction l as [|x l IH]; intros [|i]; cbn; congruence. Qed.
Lemma update_nth_forall {A} (P : A -> Prop) (f : A -> A) l : (forall x, P x -> P (f x)) -> forall i, Forall P l -> Forall P (update_nth i f l).
Proof. intros H. induction l as [|x l IH]; intros [|i] F; cbn; inversion F; subst; constructor; auto. Qed.

Lemma find_named_in g p n id : graph_in g -> find_named g p n = Some (Some id) -> (id < List.length (fixes g))%nat.
Proof.
  unfold find_named. destruct (get n (fix_id_by_name g)) as [ids|]; [|discriminate]. intros _.
  induction ids as [|i ids IH]; [discriminate|]. cbn [find_id]. unfold fix_at. destruct (nth_error (fixes g) i) eqn:E; [|discriminate].
  destruct (p g0); [|exact IH]. intros [=<-]. apply nth_error_Some. congruence.
Qed.
Lemma add_fix_in g pos n : graph_in g -> let '(g', id) := add_fix_raw g pos n in graph_in g' /\ more g g' /\ (id < List.length (fixes g'))%nat.
Proof.
  intros [F [M A]]. unfold add_fix_raw. set (g' := mkGraph _ _ _ _ _). assert (L : List.length (fixes g') = S (List.length (fixes g))) by (cbn; rewrite app_length; cbn; lia).
  assert (MO : more g g') by (split; [lia | reflexivity]). split; [|split; [exact MO | lia]]. split; [|split; [|exact A]].
  - change (fixes g') with (fixes g ++ [mkGfix pos []]). apply Forall_app. split.
    + revert F. apply Forall_impl. intros f. apply gfix_more, MO.
    + constructor; [|constructor]. split; [apply nil_entries | constructor].
  - rewrite L. apply (mpush_entries (fun i => i < S (List.length (fixes g)))%nat); [lia|]. revert M. apply entries_impl. intros l. apply Forall_impl. lia.
Qed.
Lemma fix_id_in g pos n g' id : graph_in g -> get_or_insert_fix_id g pos n = Some (g', id) -> graph_in g' /\ more g g' /\ (id < List.length (fixes g'))%nat.
Proof.
  intros G. unfold get_or_insert_fix_id. destruct (find_named _ _ _) as [[i|]|] eqn:E; [| |discriminate].
  - intros [=<- <-]. split; [exact G|]. split; [split; lia | exact (find_named_in _ _ _ _ G E)].
  - intros [=<- <-]. exact (add_fix_in g pos n G).
Qed.
Lemma airway_id_in g n : graph_in g -> let '(g', id) := get_or_insert_airway_id g n in graph_in g' /\ more g g' /\ (id < List.length (airway_name_by_id g'))%nat.
Proof.
  intros G. unfold get_or_insert_airway_id. destruct (get n (airway_id_by_name g)) as [i|] eqn:E.
  - split; [exact G|]. split; [split; lia|]. exact (get_entries _ _ _ _ (proj2 (proj2 G)) E).
  - destruct G as [F [M A]]. set (g' := mkGraph _ _ _ _ _).
    assert (L : List.length (airway_name_by_id g') = S (List.length (airway_name_by_id g))) by (cbn; rewrite app_length; cbn; lia).
    assert (MO : more g g') by (split; [reflexivity | lia]). split; [|split; [exact MO | lia]]. split; [|split; [exact M|]].
    + revert F. apply Forall_impl. intros f. apply gfix_more, MO.
    + rewrite L. apply put_entries; [lia|]. revert A. apply entries_impl. lia.
Qed.
Lemma merge_u32 f a b : (forall x y, u32_ok x -> u32_ok y -> u32_ok (f x y)) -> when u32_ok a -> when u32_ok b -> when u32_ok (merge_opt f a b).
Proof. intros H. destruct a, b; cbn; auto. Qed.
Lemma upsert_in g n es : edge_in g n -> Forall (edge_in g) es -> Forall (edge_in g) (upsert_edge n es).
Proof.
  intros N. induction 1 as [|e es [E1 [E2 E3]] FE IH]; cbn [upsert_edge]; [constructor; [exact N | constructor]|].
  destruct (Nat.eqb _ _); constructor; try assumption; [|exact (conj E1 (conj E2 E3))].
  destruct N as [N1 [N2 N3]]. split; [exact E1|]. split; (apply merge_u32; [unfold u32_ok; intros; lia | assumption | assumption]).
Qed.
Lemma map_fst_put {K V} `{EqDec K} (P : K -> Prop) k (v : V) m : P k -> Forall P (map fst m) -> Forall P (map fst (put k v m)).
Proof.
  intros Pk. induction m as [|[k1 v1] m IH]; cbn [put map fst]; intros F; [constructor; auto|]. inversion F; subst.
  destruct (eq_dec k k1); cbn [map fst]; constructor; auto.
Qed.
Lemma edge_insert_in g from awy n g' : graph_in g -> (awy < List.length (airway_name_by_id g))%nat -> edge_in g n ->
  insert_or_update_edge g from awy n = Some g' -> graph_in g' /\ more g g'.
Proof.
  intros [F [M A]] LA N. unfold insert_or_update_edge. destruct (fix_at g from); [|discriminate]. intros [=<-].
  set (g' := mkGraph _ _ _ _ _). assert (L : List.length (fixes g') = List.length (fixes g)) by apply update_nth_length.
  assert (MO : more g g') by (split; [lia | reflexivity]). split; [|exact MO]. split; [|split; [rewrite L; exact M | exact A]].
  assert (Forall (gfix_in g) (fixes g')) as X; [|revert X; apply Forall_impl; intros f; apply gfix_more, MO].
  apply update_nth_forall; [|exact F]. intros f [E1 E2]. split; cbn [g_edges].
  - apply put_entries; [|exact E1]. apply upsert_in; [exact N|]. destruct (get awy (g_edges f)) eqn:G; [|constructor]. exact (get_entries _ _ _ _ E1 G).
  - apply map_fst_put; assumption.
Qed.
Lemma segment_in g awy n pos seg ty g' : graph_in g -> when u32_ok (af_min seg) -> insert_segment g awy n pos seg ty = Some g' -> graph_in g'.
Proof.
  intros G U. unfold insert_segment. destruct (get_or_insert_fix_id g pos n) as [[g1 id1]|] eqn:E1; [|discriminate].
  destruct (fix_id_in _ _ _ _ _ G E1) as [G1 [M1 L1]]. destruct (get_or_insert_fix_id g1 _ _) as [[g2 id2]|] eqn:E2; [|discriminate].
  destruct (fix_id_in _ _ _ _ _ G1 E2) as [G2 [M2 L2]]. pose proof (airway_id_in g2 awy G2) as E3.
  destruct (get_or_insert_airway_id g2 awy) as [g3 a3]. destruct E3 as [G3 [M3 L3]].
  destruct (insert_or_update_edge g3 id1 a3 _) as [g4|] eqn:E4; [|discriminate].
  destruct M1, M2, M3. apply edge_insert_in in E4; [|exact G3 | exact L3|]; [|split; [cbn; lia | split; [exact U | exact I]]].
  destruct E4 as [G4 [M4 M4']]. intros E5. apply edge_insert_in in E5; [exact (proj1 E5) | exact G4 | lia|]. split; [cbn; lia | split; [exact U | exact I]].
Qed.

Lemma level_u32 p o : airway_level p = Ret o -> when u32_ok o.
Proof.
  unfold airway_level. destruct (is_rule p _); [intros [=<-]; exact I|]. destruct (is_rule p _); [|discriminate]. intros H. ret H n E. injection H as <-.
  apply unwrap_ret in E. exact (parse_u32_range _ _ E).
Qed.
Lemma fix_parse_u32 p o : airway_fix_parse p = Ret (Some o) -> when u32_ok (af_min o).
Proof.
  unfold airway_fix_parse. destruct (is_rule p _); [discriminate|]. destruct (is_rule p _); [|discriminate]. intros H.
  ret H x1 E1. destruct x1. ret H x2 E2. destruct x2. ret H x3 E3. ret H x4 E4. destruct x4. ret H x5 E5. ret H x6 E6. destruct x6. injection H as <-.
  cbn [af_min]. exact (level_u32 _ _ E5).
Qed.
Lemma segments_in n : forall acc a f pos ty l g, graph_in acc -> airway_segments n acc a f pos ty l = Ret g -> graph_in g.
Proof.
  induction n as [|n IH]; intros acc a f pos ty l g G H; cbn [airway_segments] in H; [injection H as <-; exact G|].
  ret H x1 E1. destruct x1 as [p l']. ret H o E2. destruct o as [seg|]; [|exact (IH _ _ _ _ _ _ _ G H)].
  ret H g' E3. apply unwrap_ret in E3. exact (IH _ _ _ _ _ _ _ (segment_in _ _ _ _ _ _ _ G (fix_parse_u32 _ _ E2) E3) H).
Qed.
Lemma pair_in g p g' : graph_in g -> airway_pair g p = Ret g' -> graph_in g'.
Proof.
  intros G H. unfold airway_pair in H. destruct (is_rule p "airway"); [|injection H as <-; exact G].
  ret H x1 E1. destruct x1. ret H x2 E2. destruct x2. ret H x3 E3. ret H x4 E4. destruct x4. ret H x5 E5. destruct x5. ret H x6 E6.
  exact (segments_in _ _ _ _ _ _ _ _ G H).
Qed.
Lemma airway_txt_in t g : parse_airway_txt t = Ret g -> graph_in g.
Proof.
  unfold parse_airway_txt. intros H. ret H kids EK. refine (ofold_inv graph_in airway_pair kids pair_in empty_graph g _ H).
  split; [constructor|]. split; apply nil_entries.
Qed.
Lemma graph_loaded g : graph_in g -> fits g -> Forall (fun f => point_ok (g_pos f)) (fixes g) -> graph_ok g.
Proof.
  intros [F [M A]] [L1 L2] P. split; [|split].
  - rewrite Forall_forall in *. intros f I. destruct (F f I) as [E K]. split; [exact (P f I)|]. split.
    + revert E. apply entries_impl. intros l. apply Forall_impl. intros e [T U]. split; [unfold usize_ok; lia | exact U].
    + revert K. apply Forall_impl. unfold usize_ok. lia.
  - revert M. apply entries_impl. intros l. apply Forall_impl. unfold usize_ok. lia.
  - revert A. apply entries_impl. unfold usize_ok. lia.
Qed.
