(** What PropJson needs about whole adaptations *)
From Verif Require Import Base Num Float Paths Trees Colours SpecColours Settings Adaptation SpecAdaptation AdaptationProofs AdaptationMore SpecSectorIndex Json SpecJson JsonAdaptation
  JsonProofs JsonRoundTrip JsonAccepts JsonWritten JsonParts JsonSound.
From Verif Require Sectors Maps SectorIndex SectorIndexProofs.
Local Open Scope string_scope.
Local Open Scope list_scope.
Lemma read_back nm a : faithful nm -> expressible a -> of_value nm (to_value nm a) = Some (without_index a).
Proof. intros FN X. destruct (good_adaptation nm FN) as [G _]. exact (G (without_index a) (conj X eq_refl)). Qed.
Lemma read_restated nm a j : faithful nm -> expressible a -> restated nm (to_value nm a) j ->
  exists a', of_value nm j = Some a' /\ expressible a' /\ reordered (to_value nm a) (to_value nm a').
Proof.
  intros FN X K. destruct (good_adaptation nm FN) as [_ S]. destruct (S (without_index a) j (conj X eq_refl) K) as [a' [D [[H _] L]]]. exists a'. auto.
Qed.
Lemma read_stable nm j a : faithful nm -> reads_numbers nm -> of_value nm j = Some a -> of_value nm (to_value nm a) = Some a.
Proof.
  intros FN RN R. destruct (sound_adaptation nm RN j a R) as [X IX]. rewrite (read_back nm a FN X). destruct a. cbn in IX. subst. reflexivity.
Qed.
Lemma read_find v nm j a contains p level : of_value nm j = Some a ->
  orders_ok v -> load_ok (load v) -> contains_ok contains -> data_ok (ad_sectors a, ad_volumes a) -> f32_ok level ->
  (forall id x, indexed (ad_sectors a, ad_volumes a) id x -> (Sectors.v_lower x < 16777216)%N /\ (Sectors.v_upper x < 16777216)%N) ->
  match find_sector v contains a p level with
  | Some id => candidate contains (ad_sectors a, ad_volumes a) p level id /\
               forall id', candidate contains (ad_sectors a, ad_volumes a) p level id' -> alpha_le id id'
  | None => forall id, ~ candidate contains (ad_sectors a, ad_volumes a) p level id
  end.
Proof.
  intros R O LD CO OK FL LV.
  assert (IX : ad_index a = None).
  { unfold of_value, c_adaptation in R. cbn [dec iso] in R. destruct (dec _ j) as [t|]; [|discriminate R]. cbn [option_map] in R. injection R as <-.
    repeat match goal with |- context [match ?x with (_, _) => _ end] => destruct x end. reflexivity. }
  unfold find_sector, index_of. rewrite IX. unfold tree_of.
  set (s' := order v SIndex _ (ad_sectors a)). assert (P : Permutation s' (ad_sectors a)) by apply O.
  assert (C : forall id, candidate contains (s', ad_volumes a) p level id <-> candidate contains (ad_sectors a, ad_volumes a) p level id).
  { intros id. split; intros [x [X H]]; exists x; (split; [|exact H]); apply (indexed_perm (ad_sectors a) s' _ _ _ P) in X || apply (indexed_perm (ad_sectors a) s' _ _ _ P); exact X. }
  assert (LV' : forall id x, indexed (s', ad_volumes a) id x -> (Sectors.v_lower x < 16777216)%N /\ (Sectors.v_upper x < 16777216)%N).
  { intros id x X. apply (LV id). apply (indexed_perm _ _ _ _ _ P). exact X. }
  pose proof (SectorIndexProofs.find_sector_spec (load v) contains (s', ad_volumes a) p level LD CO OK FL LV') as S.
  destruct (SectorIndex.find_sector contains (SectorIndex.build_tree (load v) (s', ad_volumes a)) p level) as [id|].
  - destruct S as [S1 S2]. split; [apply C, S1 | intros id' X; apply S2, C, X].
  - intros id X. apply (S id), C, X.
Qed.

(** ** A font size that is not finite *)
Lemma once_in k v w o : once k v o -> In (s2t k, w) o -> v = w.
Proof.
  intros [l [l' [-> N]]] I. apply in_app_or in I. destruct I as [I|[I|I]]; [|congruence|]; destruct N; rewrite map_app; apply in_or_app;
    [left | right]; exact (in_map fst _ _ I).
Qed.
Lemma font_infinite nm a s : Maps.st_font (se_maps (ad_settings a)) = S754_infinity s -> of_value nm (to_value nm a) = None.
Proof.
  intros F. destruct (of_value nm (to_value nm a)) as [b|] eqn:E; [exfalso | reflexivity].
  assert (C : conforms nm s_adaptation (to_value nm a)) by (apply accepts_adaptation; exists b; exact E).
  unfold to_value in C. rewrite (wr_adaptation nm) in C. unfold document, obj in C. rewrite conforms_parts in C.
  destruct (C "settings" s_settings) as [v [V Cv]]; [cbn; tauto|].
  apply (once_in _ _ (w_settings nm (ad_settings a))) in V; [|cbn; tauto]. subst v.
  unfold w_settings, obj, s_settings in Cv. inversion Cv as [| | | | | | | | | | | | |fs o H| | | |]; subst; clear Cv.
  destruct (H "maps" Required _ (or_introl eq_refl)) as [[N _]|[v [V Cv]]]; [congruence|].
  eapply once_in in V; [|left; reflexivity]. subst v. inversion Cv as [| | | | | | | | | | | | |fs o H'| | | |]; subst; clear Cv.
  destruct (H' "font_size" Required _ (or_intror (or_introl eq_refl))) as [[N _]|[v [V Cv]]]; [congruence|].
  eapply once_in in V; [|right; left; reflexivity]. subst v. rewrite F in Cv. inversion Cv.
Qed.
