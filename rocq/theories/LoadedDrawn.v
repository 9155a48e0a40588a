(** Proofs for the positive part of C71: what is drawn. *)
From Verif Require Import Base Num Float Colours Settings SpecJson SpecLoaded LoadedGraph LoadedSct LoadedColours LoadedMaps.
From Verif Require Maps Locations.
Import Maps.
Local Open Scope list_scope.

(** ** Maps *)
Definition look_ok (g : group) : Prop := colour_ok (g_colour g) /\ style_ok (g_style g).
Definition looks_ok (m : map_) : Prop := Forall look_ok (m_groups m).
Section Build.
  Context (c : ctx) (col : colour).
  Hypothesis (LK : forall n x, lookup c n = Some x -> colour_ok x) (CO : colour_ok col).
  Lemma default_look : look_ok (default_group (sets_ c) col).
  Proof. split; [exact CO | unfold style_ok, i32_ok; cbn; lia]. Qed.
  Lemma set_last_look l x : Forall look_ok l -> look_ok x -> Forall look_ok (set_last l x).
  Proof.
    intros F H. unfold set_last. apply Forall_app. split; [|repeat constructor; apply H].
    rewrite Forall_forall in *. intros y I. apply F. clear - I. induction l as [|a [|b l] IH]; cbn in *; [exact I | destruct I | destruct I as [<-|I]; auto].
  Qed.
  Lemma change_look m f : (forall g, look_ok g -> look_ok (f g)) -> looks_ok m -> looks_ok (config_change (sets_ c) col m f).
  Proof.
    intros Hf F. unfold config_change. destruct (rev (m_groups m)) as [|g r] eqn:E.
    - apply Forall_app. split; [exact F|]. repeat constructor; apply Hf, default_look.
    - assert (G : look_ok g) by (apply (proj1 (Forall_forall _ _) F), in_rev; rewrite E; left; reflexivity).
      destruct (is_nil (g_lines g) && is_nil (g_symbols g) && is_nil (g_labels g)).
      + apply set_last_look; [exact F | apply Hf, G].
      + apply Forall_app. split; [exact F|]. constructor; [apply Hf, G | constructor].
  Qed.
  Lemma last_look m f m' : (forall g, look_ok g -> look_ok (f g)) -> looks_ok m -> on_last m f = Some m' -> looks_ok m'.
  Proof.
    intros Hf F H. unfold on_last in H. destruct (rev (m_groups m)) as [|g r] eqn:E; [discriminate|]. injection H as <-.
    apply set_last_look; [exact F|]. apply Hf, (proj1 (Forall_forall _ _) F), in_rev. rewrite E. left. reflexivity.
  Qed.
  Lemma step_look st r : map_rule_ok r -> (forall m b, st = Some (m, b) -> looks_ok m) -> forall m b, step c col st r = Some (m, b) -> looks_ok m.
  Proof.
    intros R F m b H. unfold step in H. destruct st as [[m0 b0]|]; [|discriminate]. specialize (F _ _ eq_refl).
    assert (D : forall f, (forall g, look_ok g -> look_ok (f g)) -> match on_last m0 f with Some m => Some (m, b0) | None => None end = Some (m, b) -> looks_ok m).
    { intros f Hf K. destruct (on_last m0 f) as [m'|] eqn:E; [|discriminate]. injection K as <- <-. exact (last_look _ _ _ Hf F E). }
    assert (A1 : forall s g, look_ok g -> look_ok (add_topsky_symbol c s g)) by (intros s g G; unfold add_topsky_symbol; destruct (conv_loc c _); exact G).
    assert (A2 : forall s g, look_ok g -> look_ok (add_topsky_text c s g)) by (intros s g G; unfold add_topsky_text; destruct (conv_loc c _); exact G).
    destruct r; try (injection H as <- <-; first [exact F | apply change_look; [intros g G; exact G | exact F] | exact F]).
    - destruct (lookup c s) as [x|] eqn:E; injection H as <- <-; [|exact F]. apply change_look; [|exact F]. intros g [_ G]. split; [exact (LK _ _ E) | exact G].
    - destruct (rev (m_active m0)); injection H as <- <-; exact F.
    - refine (D _ _ H). intros g G. exact (A1 _ _ G).
    - injection H as <- <-. apply change_look; [|exact F]. intros g [G _]. split; [exact G | exact R].
    - refine (D _ _ H). intros g G. exact G.
    - refine (D _ _ H). intros g G. exact (A2 _ _ G).
    - destruct (on_last m0 _) as [m'|] eqn:E; [|discriminate]. injection H as <- <-. refine (last_look _ _ _ _ F E). intros g G. exact G.
    - destruct (on_last m0 _) as [m'|] eqn:E; [|discriminate]. injection H as <- <-. refine (last_look _ _ _ _ F E). intros g G. exact G.
  Qed.
  Lemma build_look d m : Forall map_rule_ok (md_rules d) -> build c col d = Some m -> looks_ok m.
  Proof.
    intros R H. unfold build in H.
    assert (G : forall st, (forall m b, st = Some (m, b) -> looks_ok m) -> forall m b, fold_left (step c col) (md_rules d) st = Some (m, b) -> looks_ok m).
    { clear H. induction R as [|r rs Hr _ IH]; intros st F; cbn [fold_left]; [exact F|]. apply IH. exact (step_look st r Hr F). }
    destruct (fold_left _ _ _) as [[m' b]|] eqn:E in H; [|discriminate]. injection H as <-. refine (G _ _ _ _ E).
    intros m0 b0 K. injection K as <- <-. constructor; [apply default_look | constructor].
  Qed.
End Build.
Lemma find_map_in {A B} (f : A -> option B) l y : Locations.find_map f l = Some y -> exists x, In x l /\ f x = Some y.
Proof. induction l as [|a l IH]; cbn; [discriminate|]. destruct (f a) eqn:E; [intros [= <-]; eauto | intros H; destruct (IH H) as [x [I K]]; eauto]. Qed.
Definition folders_look : list (text * folder) -> Prop := entries (fun f => entries looks_ok (fo_maps f)).
Lemma file_look auto ov fs m fs' : folders_look fs -> looks_ok m -> file_map auto ov fs m = Some fs' -> folders_look fs'.
Proof.
  intros F M H. unfold file_map in H. destruct (get (m_folder m) fs) as [f|] eqn:E.
  - assert (G : entries looks_ok (fo_maps f)) by (apply get_In in E; exact (proj2 F _ _ E)).
    assert (I : forall n fs', Some (put (m_folder m) (mkFolder (fo_name f) (fo_hidden f) (put n (rename m n) (fo_maps f))) fs) = Some fs' -> folders_look fs').
    { intros n r K. injection K as <-. apply put_entries; [|exact F]. apply put_entries; [exact M | exact G]. }
    destruct (Locations.has (m_name m) (fo_maps f)); [|exact (I _ _ H)]. destruct (free_index _ _ _ _); [exact (I _ _ H) | discriminate].
  - injection H as <-. apply put_entries; [|exact F]. cbn [fo_maps]. split; [repeat constructor; intros []|]. intros k a [[= <- <-]|[]]. exact M.
Qed.
Lemma maps_look c ov ds fs : (forall n x, lookup c n = Some x -> colour_ok x) -> Forall (fun d => Forall map_rule_ok (md_rules d)) ds ->
  from_topsky c ov ds = Some fs -> folders_look fs.
Proof.
  intros LK R H. unfold from_topsky in H. revert H.
  assert (G : forall st, (forall fs, st = Some fs -> folders_look fs) -> forall fs,
    fold_left (fun acc d =>
    match acc, first_colour c (md_rules d) with
    | Some folders, Some col =>
      match build c col d with
      | Some m => file_map (st_auto (sets_ c)) ov folders m
      | None => None
      end
    | _, None => acc
    | None, _ => None
    end) ds st = Some fs -> folders_look fs).
  { induction R as [|d l Hd _ IH]; intros st F; cbn [fold_left]; [exact F|]. apply IH. intros r K.
    destruct st as [fo|]; [|destruct (first_colour c (md_rules d)); discriminate]. specialize (F _ eq_refl).
    destruct (first_colour c (md_rules d)) as [col|] eqn:E; [|injection K as <-; exact F].
    destruct (build c col d) as [m|] eqn:B; [|discriminate]. refine (file_look _ _ _ _ _ F _ K). refine (build_look c col LK _ d m Hd B).
    unfold first_colour in E. destruct (find_map_in _ _ _ E) as [x [_ Q]]. destruct x; try discriminate. exact (LK _ _ Q). }
  apply G. intros r K. injection K as <-. apply nil_entries.
Qed.
Lemma maps_loaded fs : folders_look fs -> each (fun f => each (fun m => Forall group_floats (m_groups m)) (fo_maps f)) fs -> entries folder_ok fs.
Proof.
  intros [N F] G. split; [exact N|]. intros k f I. destruct (F k f I) as [N' F']. split; [exact N'|]. intros n m J.
  pose proof (F' n m J) as A. pose proof (G k f I n m J) as B. unfold map_ok, looks_ok in *. rewrite Forall_forall in *.
  intros g K. destruct (A g K) as [A1 A2], (B g K) as [B1 [B2 [B3 [B4 [B5 [B6 B7]]]]]]. unfold group_ok. tauto.
Qed.

(** ** Symbols *)
Lemma symbols_loaded (t : option (list (text * symbol))) (y : list (symbol_type * symbol)) : when (@entries text symbol (Forall angles_ok)) t -> @entries symbol_type symbol (Forall angles_ok) y -> symbols_floats (symbols_from t y) -> symbols_ok (symbols_from t y).
Proof.
  intros T Y [A B].
  assert (P : forall n ty d, Forall angles_ok d -> Forall angles_ok (pick_symbol t y n ty d)).
  { intros n ty d D. unfold pick_symbol, unwrap_or, or_else, and_then. destruct t as [l|].
    - destruct (get (s2t n) l) eqn:E; [exact (get_entries _ _ _ _ T E)|]. destruct (get ty y) eqn:E'; [exact (get_entries _ _ _ _ Y E') | exact D].
    - destruct (get ty y) eqn:E'; [exact (get_entries _ _ _ _ Y E') | exact D]. }
  assert (C : forall s, Forall angles_ok s -> Forall rule_floats s -> Forall rule_ok s) by (intros s; apply Forall_and; apply rule_loaded).
  split.
  - cbn [symbols_from sy_history sy_fix sy_ndb sy_vor sy_airport sy_primary sy_coasted sy_uncontrolled sy_controlled] in *.
    repeat (let X := fresh in let Y := fresh in inversion A as [|? ? X Y]; subst; clear A; rename Y into A;
      constructor; [apply C; [apply P; repeat constructor; unfold i64_ok; lia | exact X]|]). constructor.
  - cbn [symbols_from sy_other] in *. destruct t as [l|]; [|apply nil_entries]. refine (entries_each _ _ _ _ _ T B). exact C.
Qed.
