(** Proofs about hash map orders, the working directory, overlays and adaptation.toml *)
From Coq Require Import Reals.
From Flocq Require Import Core BinarySingleNaN.
From Verif Require Import Base Float Paths Colours Settings Trees Decode SpecSectors SpecSectorIndex.
From Verif Require PathProofs SpecPrf SpecColours ColoursProofs SpecSettings SettingsProofs SpecLocations LocationsResolve Constraints Prf SctData SctParse EseParse AirwayTxt Airways SymbologyParse TopskyParse Icao Sectors SectorIndex SectorsFromEse SectorIndexProofs Locations Maps.
From Verif Require Import Adaptation SpecAdaptation AdaptationProofs AdaptationLoads AdaptationContents.
Local Open Scope string_scope.
Local Open Scope list_scope.

(** ** Iteration orders *)
Lemma together_iff entries ccw a : NoDup (keys entries) -> sectors_ok entries ccw (ad_volumes a) (ad_sectors a) -> forall x y,
  together a x y <-> exists s s', valid_entry entries x s /\ valid_entry entries y s' /\
    Sectors.es_owner s = Sectors.es_owner s' /\ Sectors.es_runways s = Sectors.es_runways s'.
Proof.
  intros ND OK x y. split.
  - intros [id [[sc [I X]] [sc' [I' Y]]]]. assert (sc' = sc) as -> by exact (SectorsFromEse.NoDup_keys_inj _ _ _ _ (proj2 (so_keys _ _ _ _ OK)) I' I).
    destruct (so_members _ _ _ _ OK id sc I) as [_ [rw [_ M]]]. apply M in X. apply M in Y. destruct X as [s [V [O R]]], Y as [s' [V' [O' R']]].
    exists s, s'. repeat split; try apply V; try apply V'; congruence.
  - intros [s [s' [V [V' [EO ER]]]]]. destruct (so_every _ _ _ _ OK x s V) as [k [sc [I X]]]. exists k. split; exists sc; (split; [exact I|]); [exact X|].
    destruct (so_members _ _ _ _ OK k sc I) as [_ [rw [_ M]]]. pose proof (proj1 (M x) X) as [s0 [V0 [O0 R0]]]. apply M. exists s'. split; [exact V'|].
    assert (s0 = s) as -> by exact (SectorsFromEse.NoDup_keys_inj _ _ _ _ ND (proj1 V0) (proj1 V)). split; congruence.
Qed.

Lemma file_read_det {A} v p (parse : text -> outcome A) x y : file_read v p parse x -> file_read v p parse y -> x = y.
Proof. intros [q [b [E [R P]]]] [q' [b' [E' [R' P']]]]. congruence. Qed.
Lemma orders_same v ld o r a a' : orders_ok v -> orders_ok (with_orders v ld o) ->
  topsky_dir (with_orders v ld o) r = topsky_dir v r -> squawks_file (with_orders v ld o) r = squawks_file v r ->
  from_prf v r = Ret a -> from_prf (with_orders v ld o) r = Ret a' ->
  exists F t q, files_read v r F /\ topsky_data v r t /\ squawks_data v r q /\ contents v r F t q a /\ contents (with_orders v ld o) r F t q a'.
Proof.
  intros O O' ET EQ H H'. pose proof (from_prf_ret _ _ _ H) as [F [t [q M]]]. pose proof (from_prf_ret _ _ _ H') as [F' [t' [q' M']]].
  assert (F' = F).
  { pose proof (mo_files _ _ _ _ _ _ M) as R. pose proof (mo_files _ _ _ _ _ _ M') as R'. destruct R as [R1 R2 R3 R4 R5 R6 R7 R8], R' as [Q1 Q2 Q3 Q4 Q5 Q6 Q7 Q8].
    change (cwd (with_orders v ld o)) with (cwd v) in *.
    pose proof (file_read_det v _ _ _ _ Q1 R1) as E1. pose proof (file_read_det v _ _ _ _ Q2 R2) as E2. pose proof (file_read_det v _ _ _ _ Q3 R3) as E3.
    pose proof (file_read_det v _ _ _ _ Q4 R4) as E4. pose proof (file_read_det v _ _ _ _ Q5 R5) as E5. pose proof (file_read_det v _ _ _ _ Q6 R6) as E6.
    pose proof (file_read_det v _ _ _ _ Q7 R7) as E7. pose proof (file_read_det v _ _ _ _ Q8 R8) as E8. destruct F, F'. cbn in *. congruence. }
  assert (t' = t).
  { pose proof (mo_topsky _ _ _ _ _ _ M) as T1. pose proof (mo_topsky _ _ _ _ _ _ M') as T2. revert T2. unfold topsky_data in *. rewrite ET.
    change (topsky_files (with_orders v ld o)) with (topsky_files v). destruct t as [t|], t' as [t'|].
    - intros [d [E X]]. destruct T1 as [d' [E' X']]. congruence.
    - destruct T1 as [d' [E' X']]. intros [T2|[d [E X]]]; congruence.
    - intros [d [E X]]. destruct T1 as [T1|[d' [E' X']]]; congruence.
    - reflexivity. }
  assert (q' = q).
  { pose proof (mo_squawks _ _ _ _ _ _ M) as T1. pose proof (mo_squawks _ _ _ _ _ _ M') as T2. revert T2. unfold squawks_data in *. rewrite EQ.
    change (read (with_orders v ld o)) with (read v). change (json (with_orders v ld o)) with (json v). destruct q as [q|], q' as [q'|].
    - intros [d [b [E [X Y]]]]. destruct T1 as [d' [b' [E' [X' Y']]]]. congruence.
    - destruct T1 as [d' [b' [E' [X' Y']]]]. intros [T2|[d [E [X|[b [X Y]]]]]]; congruence.
    - intros [d [b [E [X Y]]]]. destruct T1 as [T1|[d' [E' [X'|[b' [X' Y']]]]]]; congruence.
    - reflexivity. }
  subst F' t' q'. exists F, t, q.
  split; [exact (mo_files _ _ _ _ _ _ M)|]. split; [exact (mo_topsky _ _ _ _ _ _ M)|]. split; [exact (mo_squawks _ _ _ _ _ _ M)|].
  split; [exact (made_contents _ _ _ _ _ _ O H M) | exact (made_contents _ _ _ _ _ _ O' H' M')].
Qed.

(** ** The working directory *)
Lemma trim_end_first c s : Prf.is_white c = false -> exists r, Prf.trim_end (c :: s) = c :: r.
Proof.
  intros W. unfold Prf.trim_end. cbn [rev]. assert (X : forall l, exists l', Prf.trim_start (l ++ [c]) = l' ++ [c]).
  { induction l as [|x l [l' IH]]; cbn [app Prf.trim_start].
    - rewrite W. exists []. reflexivity.
    - destruct (Prf.is_white x); [exists l'; exact IH | exists (x :: l); reflexivity]. }
  destruct (X (rev s)) as [l' ->]. rewrite rev_app_distr. cbn. eexists. reflexivity.
Qed.
Lemma join_cwd w w' r k x : self_contained r -> In (k, x) (Prf.settings r) -> Prf.join_settings_path w r x = Prf.join_settings_path w' r x.
Proof.
  intros S I. destruct (S k x I) as [y [-> | ->]]; unfold Prf.join_settings_path.
  - destruct (trim_end_first 92%N y eq_refl) as [z ->]. reflexivity.
  - destruct (trim_end_first 47%N y eq_refl) as [z ->]. reflexivity.
Qed.
Lemma setting_cwd (f : path -> text -> outcome path) w w' r k : (forall x, (exists k, In (k, x) (Prf.settings r)) -> f w x = f w' x) ->
  (do x <- Prf.setting r k; f w x) = (do x <- Prf.setting r k; f w' x).
Proof.
  intros H. unfold Prf.setting. destruct (get _ _) as [x|] eqn:G; [|reflexivity]. cbn. apply H. eexists. exact (get_In _ _ _ G).
Qed.
Lemma find_plugin_cwd w w' r dll f it : self_contained r -> incl it (Prf.settings r) -> Prf.find_plugin w r dll f it = Prf.find_plugin w' r dll f it.
Proof.
  intros S. induction it as [|[k x] it IH]; intros I; [reflexivity|]. cbn [Prf.find_plugin].
  rewrite (join_cwd w w' r k x S (I _ (or_introl eq_refl))). rewrite IH by (intros z J; apply I; right; exact J). reflexivity.
Qed.
Lemma recent_cwd w w' r n : self_contained r -> Prf.recent_path w r n = Prf.recent_path w' r n.
Proof.
  intros S. unfold Prf.recent_path. destruct (get _ _) as [x|] eqn:G; [|reflexivity]. rewrite (join_cwd w w' r _ x S (get_In _ _ _ G)). reflexivity.
Qed.
Lemma omap_ext {A B} (f g : A -> outcome B) l : (forall x, f x = g x) -> omap f l = omap g l.
Proof. intros E. induction l as [|x l IH]; [reflexivity|]. cbn [omap]. rewrite E, IH. reflexivity. Qed.
Lemma asr_files_ext {P} (f g : N -> option P) : (forall n, f n = g n) -> asr_files f = asr_files g.
Proof. intros E. unfold asr_files. rewrite ?E. induction [1; 2; 3; 4; 5; 6; 7; 8; 9]%N as [|n l IH]; [reflexivity|]. cbn. rewrite E, IH. reflexivity. Qed.
Lemma obind_ext {A B} (x : outcome A) (f g : A -> outcome B) : (forall y, f y = g y) -> obind x f = obind x g.
Proof. intros E. destruct x; cbn; [apply E | reflexivity..]. Qed.
Lemma from_prf_cwd v c r : orders_ok v -> self_contained r -> from_prf (with_cwd v c) r = from_prf v r.
Proof.
  intros O S.
  assert (J : forall x, (exists k, In (k, x) (Prf.settings r)) -> Prf.join_settings_path c r x = Prf.join_settings_path (cwd v) r x)
    by (intros x [k I]; exact (join_cwd _ _ _ _ _ S I)).
  assert (E : forall k, (do x <- Prf.setting r k; Prf.join_settings_path c r x) = (do x <- Prf.setting r k; Prf.join_settings_path (cwd v) r x))
    by (intros k; exact (setting_cwd (fun w x => Prf.join_settings_path w r x) _ _ _ _ J)).
  assert (I : incl (order v SPrf _ (Prf.settings r)) (Prf.settings r)) by (intros z Z; exact (Permutation_in _ (O _ _ _) Z)).
  assert (LQ : load_squawks (with_cwd v c) r = load_squawks v r).
  { unfold load_squawks, Prf.squawks_path. cbn [with_cwd cwd order read json]. rewrite (find_plugin_cwd c (cwd v) r _ _ _ S I). reflexivity. }
  assert (LT : load_topsky (with_cwd v c) r = load_topsky v r).
  { unfold load_topsky, Prf.topsky_path. cbn [with_cwd cwd order read upper]. rewrite (find_plugin_cwd c (cwd v) r _ _ _ S I). reflexivity. }
  assert (ST : forall y t q, settings_from (with_cwd v c) r y t q = settings_from v r y t q).
  { intros y t q. unfold settings_from. cbn [with_cwd cwd]. rewrite (omap_ext _ _ _ (fun n => recent_cwd c (cwd v) r n S)).
    rewrite (asr_files_ext _ (fun i => match Prf.recent_path (cwd v) r i with Ret o => o | _ => None end)); [reflexivity|].
    intros n. rewrite (recent_cwd c (cwd v) r n S). reflexivity. }
  assert (P1 : Prf.ese_path c r = Prf.ese_path (cwd v) r).
  { unfold Prf.ese_path. apply (setting_cwd (fun w x => do p <- Prf.join_settings_path w r x; Ret (with_extension (s2t "ese") p))). intros x Z. rewrite (J x Z). reflexivity. }
  assert (P0 : Prf.sct_path c r = Prf.sct_path (cwd v) r) by apply E.
  assert (P2 : Prf.airways_path c r = Prf.airways_path (cwd v) r) by apply E. assert (P3 : Prf.symbology_path c r = Prf.symbology_path (cwd v) r) by apply E.
  assert (P4 : Prf.airports_path c r = Prf.airports_path (cwd v) r) by apply E.
  assert (P5 : Prf.navdata_airports_path c r = Prf.navdata_airports_path (cwd v) r) by apply E.
  assert (P6 : Prf.aircraft_path c r = Prf.aircraft_path (cwd v) r) by apply E. assert (P7 : Prf.airlines_path c r = Prf.airlines_path (cwd v) r) by apply E.
  unfold from_prf. rewrite LQ, LT. change (cwd (with_cwd v c)) with c. rewrite P0, P1, P2, P3, P4, P5, P6, P7.
  clear - ST. do 3 (apply obind_ext; intros ?). apply obind_ext; intros [? ?]. destruct (Constraints.extract_constraints _). do 3 (apply obind_ext; intros ?).
  rewrite ST. reflexivity.
Qed.

(** ** Overlays *)
Lemma program_eq b j l : program b j l (j ++ flat_map (overlay_import b) l).
Proof.
  induction l as [|p l IH] using rev_ind; [rewrite app_nil_r; constructor|]. rewrite flat_map_app, app_assoc. cbn [flat_map]. rewrite app_nil_r.
  exact (program_more b j l p _ IH).
Qed.
Lemma program_fun b j l x : program b j l x -> x = j ++ flat_map (overlay_import b) l.
Proof.
  induction 1 as [|l p x _ IH]; [rewrite app_nil_r; reflexivity|]. subst x. rewrite flat_map_app. cbn [flat_map]. rewrite app_nil_r, <- !app_assoc. reflexivity.
Qed.
Lemma from_option_ret {A} (o : option A) x : from_option o = Ret x <-> o = Some x.
Proof. destruct o; cbn; split; congruence. Qed.
Lemma apply_ret v b a l a' : l <> [] -> apply_jsonnet_overlays v b a l = Ret a' <->
  overlaid b a l a' /\ ad_index a' = Some (tree_of v (ad_sectors a') (ad_volumes a')).
Proof.
  intros NE. unfold apply_jsonnet_overlays. destruct l as [|p l]; [congruence|]. set (ps := p :: l). split.
  - intros H. ret H j EJ. ret H m EM. ret H a0 EA. apply from_option_ret in EJ, EM, EA. injection H as <-. split; [|reflexivity].
    exists j, (j ++ flat_map (overlay_import b) ps), m, a0. split; [exact EJ|]. split; [apply program_eq|]. split; [exact EM|]. split; [exact EA|]. repeat split.
  - intros [[j [x [m [a0 [EJ [EX [EM [EA D]]]]]]]] IX]. rewrite EJ. cbn [from_option obind]. apply program_fun in EX. rewrite <- EX, EM. cbn [from_option obind].
    rewrite EA. cbn [from_option obind]. f_equal. unfold rebuild_sector_index.
    destruct D as [<- [<- [<- [<- [<- [<- [<- [<- [<- [<- [<- [<- [<- [<- <-]]]]]]]]]]]]]]. rewrite <- IX. destruct a'. reflexivity.
Qed.
Lemma apply_not_panic v b a l : apply_jsonnet_overlays v b a l <> Panic.
Proof.
  unfold apply_jsonnet_overlays. destruct l as [|p l]; [discriminate|]. destruct (to_json b a); cbn [from_option obind]; [|discriminate].
  destruct (evaluate _ _); cbn [from_option obind]; [|discriminate]. destruct (of_json _ _); cbn; discriminate.
Qed.

Lemma indexed_perm s s' vs id x : Permutation s' s -> indexed (s', vs) id x <-> indexed (s, vs) id x.
Proof.
  intros P. split; intros [k [sc [vid [I R]]]]; exists k, sc, vid; (split; [|exact R]); cbn in *;
    [exact (Permutation_in _ P I) | exact (Permutation_in _ (Permutation_sym P) I)].
Qed.
Lemma overlaid_find v b a l a' contains p level : l <> [] -> apply_jsonnet_overlays v b a l = Ret a' -> orders_ok v -> load_ok (load v) -> contains_ok contains ->
  data_ok (ad_sectors a', ad_volumes a') -> f32_ok level ->
  (forall id x, indexed (ad_sectors a', ad_volumes a') id x -> (Sectors.v_lower x < 16777216)%N /\ (Sectors.v_upper x < 16777216)%N) ->
  match find_sector v contains a' p level with
  | Some id => candidate contains (ad_sectors a', ad_volumes a') p level id /\
               forall id', candidate contains (ad_sectors a', ad_volumes a') p level id' -> alpha_le id id'
  | None => forall id, ~ candidate contains (ad_sectors a', ad_volumes a') p level id
  end.
Proof.
  intros NE H O LD CO OK FL LV. apply (apply_ret v b a l a' NE) in H. destruct H as [_ IX]. unfold find_sector, index_of. rewrite IX. unfold tree_of.
  set (s' := order v SIndex _ (ad_sectors a')). assert (P : Permutation s' (ad_sectors a')) by apply O.
  assert (C : forall id, candidate contains (s', ad_volumes a') p level id <-> candidate contains (ad_sectors a', ad_volumes a') p level id).
  { intros id. split; intros [x [X R]]; exists x; (split; [|exact R]); apply (indexed_perm (ad_sectors a') s' _ _ _ P) in X || apply (indexed_perm (ad_sectors a') s' _ _ _ P); exact X. }
  assert (OK' : data_ok (s', ad_volumes a')) by exact OK.
  assert (LV' : forall id x, indexed (s', ad_volumes a') id x -> (Sectors.v_lower x < 16777216)%N /\ (Sectors.v_upper x < 16777216)%N).
  { intros id x X. apply (LV id). apply (indexed_perm _ _ _ _ _ P). exact X. }
  pose proof (SectorIndexProofs.find_sector_spec (load v) contains (s', ad_volumes a') p level LD CO OK' FL LV') as S.
  destruct (SectorIndex.find_sector contains (SectorIndex.build_tree (load v) (s', ad_volumes a')) p level) as [id|].
  - destruct S as [S1 S2]. split; [apply C, S1 | intros id' X; apply S2, C, X].
  - intros id X. apply (S id), C, X.
Qed.

(** ** adaptation.toml *)
Lemma target_iff b d t p : normalise_path b d (to_path t) = Ret p <-> target b d t p.
Proof.
  unfold normalise_path. rewrite from_option_ret. destruct t as [|c t]; [|destruct (N.eq_dec c 47) as [->|NC]].
  - split.
    + intros H. eexists _, []. split; [exact (PathProofs.names_total [])|]. split; [exact H|]. split; reflexivity.
    + intros [q [l [Nm [C B]]]]. apply PathProofs.names_fun in Nm. apply PathProofs.below_eq in B. subst q l. exact C.
  - rewrite PathProofs.to_path_abs. unfold join. cbn [rooted]. split.
    + intros H. eexists _, _. split; [exact (PathProofs.names_total _)|]. split; [exact H|]. split; reflexivity.
    + intros [q [l [Nm [C B]]]]. apply PathProofs.names_fun in Nm. apply PathProofs.below_eq in B. subst q l. exact C.
  - rewrite PathProofs.to_path_rel; [|intros [c' [r [E X]]]; injection E as -> ->; apply N.eqb_eq in X; congruence]. unfold join. cbn [rooted comps].
    assert (E : match c :: t with 47%N :: _ => mkPath true [] | _ => d end = d).
    { destruct c as [|c]; [reflexivity|]. do 6 (destruct c as [c|c|]; try reflexivity). congruence. }
    unfold target. rewrite E. split.
    + intros H. eexists _, _. split; [exact (PathProofs.names_total _)|]. split; [exact H|]. split; reflexivity.
    + intros [q [l [Nm [C B]]]]. apply PathProofs.names_fun in Nm. apply PathProofs.below_eq in B. subst q l. exact C.
Qed.
Lemma omap_forall2 {A B} (f : A -> outcome B) l l' : omap f l = Ret l' <-> Forall2 (fun x y => f x = Ret y) l l'.
Proof.
  revert l'. induction l as [|x l IH]; intros l'; cbn [omap].
  - split; [intros E; injection E as <-; constructor | intros E; inversion E; reflexivity].
  - split.
    + intros H. ret H y EY. ret H ys E. injection H as <-. constructor; [exact EY | apply IH, E].
    + intros H. inversion H as [|? y ? ys EY E]; subst. rewrite EY. cbn [obind]. apply IH in E. rewrite E. reflexivity.
Qed.
Lemma Forall2_impl {A B} (P Q : A -> B -> Prop) l l' : (forall x y, P x y -> Q x y) -> Forall2 P l l' -> Forall2 Q l l'.
Proof. intros H F. induction F; constructor; auto. Qed.
Lemma parent_directory f d : parent f = Some d -> SpecPrf.directory f d.
Proof.
  unfold parent. destruct (comps f) as [|c l] eqn:E; [discriminate|]. intros H. assert (NE : c :: l <> []) by discriminate. rewrite <- E in H, NE. injection H as <-.
  split; [reflexivity|]. exists (last (comps f) []). cbn. exact (app_removelast_last [] NE).
Qed.
Lemma setup_iff v b f p os : setup_parse v b f = Ret (p, os) <->
  exists bytes t ts d, read v f = Some bytes /\ toml b bytes = Some (t, ts) /\ SpecPrf.directory f d /\ target b d t p /\ Forall2 (target b d) ts os.
Proof.
  unfold setup_parse. split.
  - intros H. ret H bytes EB. ret H x ET. destruct x as [t ts]. ret H d ED. ret H p' EP. ret H os' EO. injection H as <- <-. apply from_option_ret in EB, ET.
    exists bytes, t, ts, d. split; [exact EB|]. split; [exact ET|]. split; [apply parent_directory; destruct (parent f); cbn in ED; congruence|].
    split; [apply target_iff, EP|]. apply omap_forall2 in EO. eapply Forall2_impl; [|exact EO]. intros x y. apply target_iff.
  - intros [bytes [t [ts [d [EB [ET [D [P O]]]]]]]]. rewrite EB. cbn [from_option obind]. rewrite ET. cbn [from_option obind]. rewrite (PathProofs.directory_parent _ _ D). cbn [unwrap obind].
    apply target_iff in P. rewrite P. cbn [obind]. replace (omap _ ts) with (Ret os : outcome (list path)); [reflexivity|]. symmetry. apply omap_forall2.
    eapply Forall2_impl; [|exact O]. intros x y. apply target_iff.
Qed.
Lemma setup_not_panic v b f d : SpecPrf.directory f d -> setup_parse v b f <> Panic.
Proof.
  intros D. unfold setup_parse. destruct (read v f); cbn [from_option obind]; [|discriminate]. destruct (toml b l) as [[t ts]|]; cbn [from_option obind]; [|discriminate].
  rewrite (PathProofs.directory_parent _ _ D). cbn [unwrap obind]. unfold normalise_path. destruct (canonicalize _ _); cbn [from_option obind]; [|discriminate].
  assert (X : omap (fun o => from_option (canonicalize b (join d (to_path o)))) ts <> Panic).
  { induction ts as [|x ts IH]; [discriminate|]. cbn [omap]. destruct (canonicalize _ _); cbn [from_option obind]; [|discriminate].
    destruct (omap _ ts); cbn; congruence. }
  destruct (omap _ ts); cbn; congruence.
Qed.

(** ** For PropAdaptation.v *)
Lemma files_fun v r F F' : files_read v r F -> files_read v r F' -> F' = F.
Proof.
  intros [R1 R2 R3 R4 R5 R6 R7 R8] [Q1 Q2 Q3 Q4 Q5 Q6 Q7 Q8].
  pose proof (file_read_det v _ _ _ _ Q1 R1) as E1. pose proof (file_read_det v _ _ _ _ Q2 R2) as E2. pose proof (file_read_det v _ _ _ _ Q3 R3) as E3.
  pose proof (file_read_det v _ _ _ _ Q4 R4) as E4. pose proof (file_read_det v _ _ _ _ Q5 R5) as E5. pose proof (file_read_det v _ _ _ _ Q6 R6) as E6.
  pose proof (file_read_det v _ _ _ _ Q7 R7) as E7. pose proof (file_read_det v _ _ _ _ Q8 R8) as E8. destruct F, F'. cbn in *. congruence.
Qed.
Lemma topsky_data_det v r x y : topsky_data v r x -> topsky_data v r y -> x = y.
Proof. apply (topsky_data_fun v (read v)). intros d n _ _. reflexivity. Qed.
Lemma squawks_data_det v r x y : squawks_data v r x -> squawks_data v r y -> x = y.
Proof. apply (squawks_data_fun v (read v)). intros p _. reflexivity. Qed.
Lemma loaded_contents v r a : orders_ok v -> from_prf v r = Ret a ->
  exists F t q, files_read v r F /\ topsky_data v r t /\ squawks_data v r q /\ contents v r F t q a.
Proof.
  intros O H. destruct (from_prf_ret _ _ _ H) as [F [t [q M]]]. exists F, t, q.
  split; [exact (mo_files _ _ _ _ _ _ M)|]. split; [exact (mo_topsky _ _ _ _ _ _ M)|]. split; [exact (mo_squawks _ _ _ _ _ _ M)|].
  exact (made_contents _ _ _ _ _ _ O H M).
Qed.
Lemma squawks_codes v r a q : orders_ok v -> from_prf v r = Ret a -> squawks_data v r q ->
  forall k m, get k (se_codes (ad_settings a)) = Some m <->
    exists l pre x post, q = Some l /\ l = pre ++ x :: post /\ SpecSettings.covers x k /\ sq_msg x = m /\ forall x', In x' post -> ~ SpecSettings.covers x' k.
Proof.
  intros O H Q k m. destruct (loaded_contents v r a O H) as [F [t [q' [_ [_ [Q' C]]]]]]. rewrite (squawks_data_det v r q q' Q Q').
  rewrite (sm_codes _ _ _ _ _ _ (ct_settings _ _ _ _ _ _ C) k). destruct q' as [l|].
  - rewrite SettingsProofs.special_use_codes_spec. split; [intros [pre [x [post X]]]; exists l, pre, x, post; auto | intros [l' [pre [x [post [E X]]]]]; injection E as ->; eauto].
  - split; [discriminate | intros [l [pre [x [post [E _]]]]]; discriminate].
Qed.
Lemma builtin_only upper k d : get k (line_styles_from_topsky upper None) = Some d <-> SpecSettings.builtin_style k d.
Proof.
  split; [|apply SettingsProofs.styles_builtin]. intros G. unfold line_styles_from_topsky in G. cbn [app] in G.
  assert (I : In (k, d) builtin_styles).
  { apply get_In in G. vm_compute in G. vm_compute. exact G. }
  cbn [builtin_styles In] in I. repeat (destruct I as [E|I]; [injection E as <- <-; constructor|]). destruct I.
Qed.
Lemma without_topsky v r a : orders_ok v -> from_prf v r = Ret a -> topsky_data v r None ->
  ad_maps a = [] /\
  (forall n, symbols_get (ad_symbols a) n = None) /\
  (forall F, files_read v r F -> forall k,
     (forall s, get (SpecSettings.symbology_type k) (SymbologyParse.sg_symbols (f_symbology F)) = Some s -> SpecSettings.symbol_field k (ad_symbols a) = s) /\
     (get (SpecSettings.symbology_type k) (SymbologyParse.sg_symbols (f_symbology F)) = None -> k <> SpecSettings.KVor ->
        SpecSettings.symbol_field k (ad_symbols a) = SpecSettings.symbol_field k symbols_default)) /\
  (forall k d, get k (ad_line_styles a) = Some d <-> SpecSettings.builtin_style k d) /\
  (forall F, files_read v r F -> forall n, exists d, SpecColours.builtin_default true n d /\
     colours_get (ad_colours a) n true = SpecColours.first_some [get n (SctData.sc_colours (f_sct F)); d]) /\
  se_coopans (ad_settings a) = true /\ Maps.st_font (se_maps (ad_settings a)) = f32_of_Z 12 /\
  se_vector (ad_settings a) = (false, f32_of_Z 1) /\ se_dots (ad_settings a) = (false, 6%N).
Proof.
  intros O H T. destruct (loaded_contents v r a O H) as [F [t [q [FR [T' [_ C]]]]]]. assert (t = None) as -> by exact (topsky_data_det v r _ _ T' T).
  pose proof (ct_settings _ _ _ _ _ _ C) as SM. cbn [topsky_settings] in *.
  split; [exact (ct_maps _ _ _ _ _ _ C)|]. destruct (ct_symbols _ _ _ _ _ _ C) as [l [ES ->]]. destruct (ct_styles _ _ _ _ _ _ C) as [l' [EL ->]].
  split; [intros n; rewrite ES; reflexivity|]. split.
  { intros F' FR' k. rewrite (files_fun v r F F' FR FR'), ES.
    destruct (SettingsProofs.symbols_table None (SymbologyParse.sg_symbols (f_symbology F)) k) as [_ [X Y]]. split.
    - intros s. apply X. intros ? E; discriminate E.
    - apply Y. intros ? E; discriminate E. }
  split; [intros k d; rewrite EL; apply builtin_only|]. split.
  { intros F' FR' n. rewrite (files_fun v r F F' FR FR'). destruct (ct_lookup _ _ _ _ _ _ C n) as [d [B E]]. exists d. split; [exact B | exact E]. }
  split; [exact (sm_coopans _ _ _ _ _ _ SM)|]. split; [exact (sm_font _ _ _ _ _ _ SM)|].
  split; [exact (sm_vector _ _ _ _ _ _ SM) | exact (sm_dots _ _ _ _ _ _ SM)].
Qed.
Lemma loaded_sectors v r a F : orders_ok v -> from_prf v r = Ret a -> files_read v r F ->
  NoDup (keys (EseParse.e_sectors (f_ese F))) /\ sectors_ok (EseParse.e_sectors (f_ese F)) (ccw v) (ad_volumes a) (ad_sectors a) /\
  ad_index a = Some (tree_of v (ad_sectors a) (ad_volumes a)).
Proof.
  intros O H FR. destruct (from_prf_ret _ _ _ H) as [F' [t [q M]]]. pose proof (files_fun v r F F' FR (mo_files _ _ _ _ _ _ M)) as ->.
  destruct (made_sectors v r F t q a O M) as [ND OK]. split; [exact ND|]. split; [exact OK | exact (mo_index _ _ _ _ _ _ M)].
Qed.
Lemma loaded_find v r a F contains p level : orders_ok v -> load_ok (load v) -> contains_ok contains -> ccw_ok v ->
  from_prf v r = Ret a -> files_read v r F -> levels_ok (f_ese F) -> f32_ok level ->
  match find_sector v contains a p level with
  | Some id => (exists vid s, covers contains (f_ese F) a p level vid s /\ in_sector a id vid) /\
               forall id' vid s, covers contains (f_ese F) a p level vid s -> in_sector a id' vid -> alpha_le id id'
  | None => forall vid s, ~ covers contains (f_ese F) a p level vid s
  end.
Proof.
  intros O LD CO CC H FR LV FL. destruct (loaded_sectors v r a F O H FR) as [ND [OK IX]]. exact (find_ok v contains (f_ese F) a O LD CO CC ND OK IX p level LV FL).
Qed.
Lemma loaded_at v r a F contains p : orders_ok v -> load_ok (load v) -> contains_ok contains -> ccw_ok v ->
  from_prf v r = Ret a -> files_read v r F -> forall id vol,
  In (id, vol) (volumes_at v contains a p) <->
  exists vid s, valid_entry (EseParse.e_sectors (f_ese F)) vid s /\ Sectors.es_owner s <> [] /\ in_sector a id vid /\
    get vid (ad_volumes a) = Some vol /\ contains (Sectors.v_border vol) p = true.
Proof.
  intros O LD CO CC H FR id vol. destruct (loaded_sectors v r a F O H FR) as [ND [OK IX]]. exact (at_ok v contains (f_ese F) a O LD CO CC ND OK IX p id vol).
Qed.
Lemma loaded_together v r a F : orders_ok v -> from_prf v r = Ret a -> files_read v r F -> forall x y,
  together a x y <-> exists s s', valid_entry (EseParse.e_sectors (f_ese F)) x s /\ valid_entry (EseParse.e_sectors (f_ese F)) y s' /\
    Sectors.es_owner s = Sectors.es_owner s' /\ Sectors.es_runways s = Sectors.es_runways s'.
Proof. intros O H FR. destruct (loaded_sectors v r a F O H FR) as [ND [OK _]]. exact (together_iff _ _ a ND OK). Qed.
Lemma valid_levels entries c c' vs vs' ss ss' id : NoDup (keys entries) -> sectors_ok entries c vs ss -> sectors_ok entries c' vs' ss' ->
  option_map (fun w => (Sectors.v_lower w, Sectors.v_upper w)) (get id vs) = option_map (fun w => (Sectors.v_lower w, Sectors.v_upper w)) (get id vs').
Proof.
  intros ND OK OK'. pose proof (so_volumes _ _ _ _ OK id) as V. pose proof (so_volumes _ _ _ _ OK' id) as V'.
  destruct (get id vs) as [w|], (get id vs') as [w'|]; [| | |reflexivity].
  - destruct V as [s [ring [VE [-> _]]]], V' as [s' [ring' [VE' [-> _]]]]. assert (s' = s) as -> by exact (SectorsFromEse.NoDup_keys_inj _ _ _ _ ND (proj1 VE') (proj1 VE)).
    reflexivity.
  - destruct V as [s [ring [VE _]]]. contradiction (V' s VE).
  - destruct V' as [s [ring [VE _]]]. contradiction (V s VE).
Qed.
Lemma airports_match F i i' dst L L' d : input_matches F i -> input_matches F i' -> SpecLocations.input_ok i -> SpecLocations.input_ok i' ->
  Locations.from_euroscope dst i = Ret L -> Locations.from_euroscope dst i' = Ret L' -> get d (Locations.l_airports L) = get d (Locations.l_airports L').
Proof.
  intros M M' OK OK' E E'. apply LocationsResolve.from_euroscope_tables in E, E'. apply (LocationsResolve.get_airport i L d OK E).
  assert (H : SpecLocations.airport_entry i' d (get d (Locations.l_airports L'))) by (apply (LocationsResolve.get_airport i' L' d OK' E'); reflexivity).
  assert (EA : Locations.i_airports i' = Locations.i_airports i).
  { pose proof (im_airports F i M) as A. pose proof (im_airports F i' M') as A'. revert A A'. generalize (SctData.sc_airports (f_sct F)) as l.
    generalize (Locations.i_airports i') as l2. generalize (Locations.i_airports i) as l1. clear. induction l1 as [|x l1 IH]; intros l2 l A A'; inversion A; subst; inversion A'; subst; [reflexivity|].
    f_equal; [|eapply IH; eassumption]. destruct x, x0. cbn in *. intuition congruence. }
  assert (ER : Locations.i_runways i' = Locations.i_runways i) by (rewrite (im_runways F i M), (im_runways F i' M'); reflexivity).
  assert (GN : get d (Locations.i_navdata i') = get d (Locations.i_navdata i)) by (rewrite (im_navdata F i M), (im_navdata F i' M'); reflexivity).
  assert (GI : get d (Locations.i_icao i') = get d (Locations.i_icao i)) by (rewrite (im_icao F i M), (im_icao F i' M'); reflexivity).
  unfold SpecLocations.airport_entry, SpecLocations.last_sct, SpecLocations.in_sct in *. rewrite EA, ER in H.
  destruct (get d (Locations.l_airports L')) as [a|].
  - rewrite GN, GI in H. exact H.
  - rewrite <- !get_None in *. rewrite GN in H. exact H.
Qed.
Lemma fst_inj {A B} (l : list (A * B)) k x y : NoDup (map fst l) -> In (k, x) l -> In (k, y) l -> x = y.
Proof.
  induction l as [|[k' z] l IH]; [intros _ []|]. cbn. intros N I J. inversion N as [|? ? N1 N2]. subst. destruct I as [E|I], J as [E'|J].
  - congruence.
  - injection E as -> ->. destruct N1. exact (in_map fst _ _ J).
  - injection E' as -> ->. destruct N1. exact (in_map fst _ _ I).
  - exact (IH N2 I J).
Qed.
Lemma default_fun c n d d' : SpecColours.builtin_default c n d -> SpecColours.builtin_default c n d' -> d = d'.
Proof.
  intros [[x [p [q [I [E ->]]]]]|[N ->]] [[x' [p' [q' [I' [E' ->]]]]]|[N' ->]].
  - assert (x' = x) as -> by (apply ColoursProofs.s2t_inj; congruence).
    assert (X : (p', q') = (p, q)) by exact (fst_inj _ _ _ _ ColoursProofs.default_keys_nodup I' I). injection X as -> ->. reflexivity.
  - contradiction (N' x (p, q) I E).
  - contradiction (N x' (p', q') I' E').
  - reflexivity.
Qed.
Lemma same_parts v ld o r a a' : orders_ok v -> orders_ok (with_orders v ld o) ->
  topsky_dir (with_orders v ld o) r = topsky_dir v r -> squawks_file (with_orders v ld o) r = squawks_file v r ->
  from_prf v r = Ret a -> from_prf (with_orders v ld o) r = Ret a' ->
  (forall x y, together a x y <-> together a' x y) /\
  (forall id, option_map (fun w => (Sectors.v_lower w, Sectors.v_upper w)) (get id (ad_volumes a)) =
              option_map (fun w => (Sectors.v_lower w, Sectors.v_upper w)) (get id (ad_volumes a'))) /\
  ad_name a = ad_name a' /\ al_airways (ad_locations a) = al_airways (ad_locations a') /\
  ad_departure a = ad_departure a' /\ ad_destination a = ad_destination a' /\ ad_aircraft a = ad_aircraft a' /\ ad_airlines a = ad_airlines a' /\
  (forall id, get id (ad_positions a) = get id (ad_positions a')) /\
  (forall id, get id (Locations.l_airports (al_points (ad_locations a))) = get id (Locations.l_airports (al_points (ad_locations a')))) /\
  se_coopans (ad_settings a) = se_coopans (ad_settings a') /\ se_asr (ad_settings a) = se_asr (ad_settings a') /\
  (forall k, get k (se_codes (ad_settings a)) = get k (se_codes (ad_settings a'))) /\
  (forall n, colours_get (ad_colours a) n (se_coopans (ad_settings a)) = colours_get (ad_colours a') n (se_coopans (ad_settings a'))).
Proof.
  intros O O' ET EQ H H'. destruct (orders_same v ld o r a a' O O' ET EQ H H') as [F [t [q [FR [_ [_ [C C']]]]]]].
  destruct (loaded_sectors v r a F O H FR) as [ND _].
  destruct C as [C1 C2 C3 C4 C5 C6 C7 C8 C9 C10 C11 C12 C13 C14 C15], C' as [D1 D2 D3 D4 D5 D6 D7 D8 D9 D10 D11 D12 D13 D14 D15].
  assert (CO : se_coopans (ad_settings a) = se_coopans (ad_settings a')) by (rewrite (sm_coopans _ _ _ _ _ _ C12), (sm_coopans _ _ _ _ _ _ D12); reflexivity).
  split. { intros x y. rewrite (together_iff _ _ a ND C5), (together_iff _ _ a' ND D5). reflexivity. }
  split. { intros id. exact (valid_levels _ _ _ _ _ _ _ id ND C5 D5). }
  split; [congruence|]. split; [congruence|]. rewrite C6 in D6. injection D6 as E1 E2. split; [exact E1|]. split; [exact E2|].
  split; [congruence|]. split; [congruence|]. split.
  { intros id. specialize (C4 id). specialize (D4 id). destruct (get id (EseParse.e_positions (f_ese F))) as [p|]; [|congruence].
    destruct C4 as [x [-> X]], D4 as [y [-> Y]]. f_equal. destruct x, y. cbn in *. destruct X as [? [? [? [? [? ?]]]]], Y as [? [? [? [? [? ?]]]]]. congruence. }
  split.
  { intros id. destruct C2 as [i [I1 [I2 I3]]], D2 as [i' [J1 [J2 J3]]]. exact (airports_match F i i' (dest v) _ _ id I1 J1 I2 J2 I3 J3). }
  split; [exact CO|]. split.
  { destruct (sm_asr _ _ _ _ _ _ C12) as [rc [R ->]], (sm_asr _ _ _ _ _ _ D12) as [rc' [R' ->]]. unfold asr_files.
    assert (X : forall n, (1 <= n <= 9)%N -> rc n = rc' n) by (intros n N; specialize (R n N); specialize (R' n N); change (cwd (with_orders v ld o)) with (cwd v) in R'; congruence).
    cbn [flat_map]. rewrite !X by lia. reflexivity. }
  split. { intros k. rewrite (sm_codes _ _ _ _ _ _ C12 k), (sm_codes _ _ _ _ _ _ D12 k). reflexivity. }
  intros n. rewrite CO, (sm_coopans _ _ _ _ _ _ D12). destruct (C10 n) as [d [B E]], (D10 n) as [d' [B' E']]. rewrite E, E'.
  rewrite (default_fun _ _ _ _ B B'). reflexivity.
Qed.

Lemma same_data_trans a b c : same_data a b -> same_data c b -> same_data a c.
Proof. unfold same_data. intros H H'. intuition congruence. Qed.
Lemma overlays_ok v b a l : l <> [] ->
  (forall a', apply_jsonnet_overlays v b a l = Ret a' -> overlaid b a l a') /\
  (forall a0, overlaid b a l a0 -> exists a', apply_jsonnet_overlays v b a l = Ret a' /\ same_data a' a0) /\
  apply_jsonnet_overlays v b a l <> Panic.
Proof.
  intros NE. split; [intros a' H; apply (apply_ret v b a l a' NE) in H; exact (proj1 H)|]. split; [|apply apply_not_panic].
  intros a0 H. exists (rebuild_sector_index v a0). split; [|repeat split]. apply (apply_ret v b a l _ NE). split; [|reflexivity].
  destruct H as [j [x [m [a1 [E1 [E2 [E3 [E4 D]]]]]]]]. exists j, x, m, a1. repeat (split; [assumption|]). exact D.
Qed.
Lemma toml_loads v b f a : from_adaptation_toml v b f = Ret a <->
  exists p os bytes r a0, setup_parse v b f = Ret (p, os) /\ read v p = Some bytes /\ Prf.prf_parse (canonicalize b p) (read_to_string bytes) = Ret r /\
    from_prf v r = Ret a0 /\ apply_jsonnet_overlays v b a0 os = Ret a.
Proof.
  unfold from_adaptation_toml, from_prf_with_overlays. split.
  - intros H. ret H x EX. destruct x as [p os]. ret H bytes EB. ret H r ER. ret H a0 EA. apply from_option_ret in EB. exists p, os, bytes, r, a0. auto.
  - intros [p [os [bytes [r [a0 [EX [EB [ER [EA H]]]]]]]]]. rewrite EX. cbn [obind]. rewrite EB. cbn [from_option obind]. rewrite ER. cbn [obind]. rewrite EA. exact H.
Qed.
Lemma loaded_places v r a F : orders_ok v -> from_prf v r = Ret a -> files_read v r F ->
  exists i, input_matches F i /\
    (forall d, SpecLocations.airport_entry i d (get d (Locations.l_airports (al_points (ad_locations a))))) /\
    (forall d, SpecLocations.plain_digits d -> forall o,
       Locations.convert_designator (dest v) (al_points (ad_locations a)) d = Ret o <-> SpecLocations.resolves (dest v) i d o).
Proof.
  intros O H FR. destruct (loaded_contents v r a O H) as [F' [t [q [FR' [_ [_ C]]]]]]. pose proof (files_fun v r F F' FR FR') as ->.
  destruct (ct_points _ _ _ _ _ _ C) as [i [I1 [I2 I3]]]. exists i. split; [exact I1|]. apply LocationsResolve.from_euroscope_tables in I3. split.
  - intros d. apply (LocationsResolve.get_airport i _ d I2 I3). reflexivity.
  - intros d P. apply LocationsResolve.designator_spec; assumption.
Qed.
