(** C71: what is loaded survives its JSON form, if its floats are numbers.  Specification: SpecLoaded.v, SpecJson.v. *)
From Verif Require Import Base Float Paths Trees Adaptation SpecAdaptation AdaptationExample Json SpecJson JsonAdaptation JsonParts JsonMore JsonExample PropJson SpecLoaded LoadedEse LoadedProofs.
From Verif Require Prf.
Local Open Scope string_scope.
Local Open Scope list_scope.

(** Of an adaptation that was loaded, JSON can express everything, unless a float is NaN or infinite. *)
Theorem C71_finite v r a : from_prf v r = Ret a -> orders_ok v -> path_ok (cwd v) -> path_ok (Prf.prf_path r) -> fits (al_airways (ad_locations a)) ->
  (expressible a <-> floats_ok a).
Proof.
  intros H O C R G. split; [apply expressible_floats|]. intros F. exact (loaded_ok v r a H O C R F G).
Qed.
Print Assumptions C71_finite.
(** So exactly the adaptations whose floats are all numbers are read as they were written. *)
Theorem C71_survives nm v r a : faithful nm -> reads_numbers nm -> from_prf v r = Ret a -> orders_ok v -> path_ok (cwd v) -> path_ok (Prf.prf_path r) ->
  fits (al_airways (ad_locations a)) ->
  (of_value nm (to_value nm a) = Some (without_index a) <-> floats_ok a).
Proof.
  intros FN RN H O C R G. rewrite <- (C71_finite v r a H O C R G). split; [|apply C68_read_back, FN].
  intros E. exact (proj1 (C69_expressible nm _ _ RN E)).
Qed.
Print Assumptions C71_survives.
(** With overlays whose parts conform to the schema such a profile is loaded. *)
Theorem C71_overlays nm print parse v b r a l ps : faithful nm -> from_prf v r = Ret a -> orders_ok v -> path_ok (cwd v) -> path_ok (Prf.prf_path r) ->
  fits (al_airways (ad_locations a)) -> floats_ok a -> l <> [] -> (forall p, In p ps -> NoDup (map fst p)) ->
  jsonnet_adds nm print parse b (map (fun '(k, j) => (s2t k, j)) (members nm a)) l ps ->
  (forall k s j, In (k, s) parts -> decides k j ps -> conforms nm s j) ->
  exists a', from_prf_with_overlays v (with_serde nm print parse b) r l = Ret a' /\
    forall k j, In (k, j) (members nm a) -> (forall p, In p ps -> ~ names_part k p) -> exists w, In (k, w) (members nm a') /\ reordered j w.
Proof.
  intros FN H O C R G F N D J P. apply (C71_finite v r a H O C R G) in F.
  destruct (C70_applied nm print parse v b a l ps FN N F D J) as [A B]. destruct (A P) as [a' E]. exists a'. unfold from_prf_with_overlays. rewrite H.
  split; [exact E | exact (proj1 (B a' E))].
Qed.
Print Assumptions C71_overlays.
Example C71_finite_nonvacuous : from_prf ex_env ex_prf = Ret ex_adaptation /\ orders_ok ex_env /\ path_ok (cwd ex_env) /\ path_ok (Prf.prf_path ex_prf) /\
  fits (al_airways (ad_locations ex_adaptation)) /\ floats_ok ex_adaptation /\ faithful ex_numerals /\ reads_numbers ex_numerals /\
  List.length (ad_volumes ex_adaptation) = 3%nat.
Proof.
  split; [exact ex_loaded|]. split; [exact ex_orders|].
  split; [exact (to_path_fine (s2t "/home"))|].
  assert (E : Prf.prf_path ex_prf = pth "/w/x.prf") by (vm_compute; reflexivity). split; [rewrite E; exact (to_path_fine (s2t "/w/x.prf"))|].
  split; [split; vm_compute; reflexivity|]. split; [exact (expressible_floats _ ex_expressible)|]. split; [exact ex_faithful|]. split; [exact ex_reads_numbers | reflexivity].
Qed.
