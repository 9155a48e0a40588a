(** C68-C71: the JSON form of an adaptation, and what overlays change.  Specification: SpecJson.v. *)
From Verif Require Import Base Num Float Paths Trees Colours SpecColours Settings Adaptation SpecAdaptation AdaptationMore AdaptationExample SpecSectorIndex Json SpecJson JsonAdaptation
  JsonProofs JsonRoundTrip JsonAccepts JsonWritten JsonParts JsonSound JsonExample JsonMore.
From Verif Require Sectors Maps.
Local Open Scope string_scope.
Local Open Scope list_scope.

(** ** C68: an adaptation is read back from its JSON form *)
Theorem C68_read_back nm a : faithful nm -> expressible a -> of_value nm (to_value nm a) = Some (without_index a).
Proof. exact (read_back nm a). Qed.
Print Assumptions C68_read_back.
Theorem C68_restated nm a j : faithful nm -> expressible a -> restated nm (to_value nm a) j ->
  exists a', of_value nm j = Some a' /\ expressible a' /\ reordered (to_value nm a) (to_value nm a').
Proof. exact (read_restated nm a j). Qed.
Print Assumptions C68_restated.
Theorem C68_document nm a : to_value nm a = document nm a.
Proof. exact (wr_adaptation nm a). Qed.
Print Assumptions C68_document.
(** what was read from any document is written and read as it is *)
Theorem C68_stable nm j a : faithful nm -> reads_numbers nm -> of_value nm j = Some a -> of_value nm (to_value nm a) = Some a.
Proof. exact (read_stable nm j a). Qed.
Print Assumptions C68_stable.
(** whatever document it was read from, it answers from the sectors and volumes in it *)
Theorem C68_index v nm j a contains p level : of_value nm j = Some a ->
  orders_ok v -> load_ok (load v) -> contains_ok contains -> data_ok (ad_sectors a, ad_volumes a) -> f32_ok level ->
  (forall id x, indexed (ad_sectors a, ad_volumes a) id x -> (Sectors.v_lower x < 16777216)%N /\ (Sectors.v_upper x < 16777216)%N) ->
  match find_sector v contains a p level with
  | Some id => candidate contains (ad_sectors a, ad_volumes a) p level id /\
               forall id', candidate contains (ad_sectors a, ad_volumes a) p level id' -> alpha_le id id'
  | None => forall id, ~ candidate contains (ad_sectors a, ad_volumes a) p level id
  end.
Proof. exact (read_find v nm j a contains p level). Qed.
Print Assumptions C68_index.

Example C68_nonvacuous : faithful ex_numerals /\ from_prf ex_env ex_prf = Ret ex_adaptation /\ expressible ex_adaptation /\
  orders_ok ex_env /\ load_ok (load ex_env) /\ contains_ok ex_contains /\ f32_ok ex_level /\
  exists a, of_value ex_numerals (to_value ex_numerals ex_adaptation) = Some a /\ data_ok (ad_sectors a, ad_volumes a) /\
    find_sector ex_env ex_contains a ex_point ex_level = Some (s2t "AAA") /\ restated ex_numerals (to_value ex_numerals a) (to_value ex_numerals a).
Proof.
  split; [exact ex_faithful|]. split; [exact ex_loaded|]. split; [exact ex_expressible|]. split; [exact ex_orders|]. split; [exact ex_load_ok|].
  split; [exact ex_contains_ok|]. split; [exact ex_level_ok|]. exists (without_index ex_adaptation).
  split; [apply C68_read_back; [exact ex_faithful | exact ex_expressible]|]. split; [|split; [vm_compute; reflexivity | apply alike_refl]].
  intros vid w p G I. apply get_In in G. cbn in G. destruct G as [G|[G|[G|[]]]]; injection G as _ <-; cbn in I;
    repeat (destruct I as [<-|I]; [split; intros N; vm_compute in N; discriminate|]); destruct I.
Qed.

(** ** C69: exactly the documents of the schema are read *)
Theorem C69_schema nm j : (exists a, of_value nm j = Some a) <-> conforms nm s_adaptation j.
Proof. exact (accepts_adaptation nm j). Qed.
Print Assumptions C69_schema.
(** and what is read has unique keys, integers in the range of their types, finite numbers and opaque colours *)
Theorem C69_expressible nm j a : reads_numbers nm -> of_value nm j = Some a -> expressible a /\ ad_index a = None.
Proof. exact (fun RN => sound_adaptation nm RN j a). Qed.
Print Assumptions C69_expressible.
Example C69_nonvacuous : reads_numbers ex_numerals /\ conforms ex_numerals s_adaptation ex_merged /\ ~ conforms ex_numerals s_adaptation (JObj []) /\
  ~ conforms ex_numerals s_adaptation (JArr [JStr (s2t "Name")]).
Proof.
  split; [exact ex_reads_numbers|]. rewrite <- !C69_schema. split; [eexists; vm_compute; reflexivity|]. split; intros [a H]; vm_compute in H; discriminate.
Qed.

(** ** C70: overlays decide the parts that they name, and no others *)

(** the JSON form of [a] with the members of the overlays is read if the overlays have parts of the schema ... *)
Theorem C70_accepted nm a ps : faithful nm -> expressible a -> (forall p, In p ps -> NoDup (map fst p)) ->
  (exists a', of_value nm (JObj (merged_all (map (fun '(k, j) => (s2t k, j)) (members nm a)) ps)) = Some a') <->
  forall k s v, In (k, s) parts -> decides k v ps -> conforms nm s v.
Proof. exact (fun FN => overlay_accepted nm FN a ps). Qed.
Print Assumptions C70_accepted.
(** ... parts that no overlay names stay as they are ... *)
Theorem C70_kept nm a ps a' : faithful nm -> expressible a ->
  of_value nm (JObj (merged_all (map (fun '(k, j) => (s2t k, j)) (members nm a)) ps)) = Some a' -> agree (fun k => forall p, In p ps -> ~ names_part k p) a a'.
Proof. exact (fun FN => overlay_kept nm FN a ps a'). Qed.
Print Assumptions C70_kept.
(** ... and those that are named are read from the last overlay that names them, as from any document [ob]. *)
Theorem C70_taken nm o ps a' ob b : of_value nm (JObj ob) = Some b -> of_value nm (JObj (merged_all o ps)) = Some a' ->
  agree (fun k => exists v, decides k v ps /\ once k v ob) b a'.
Proof. exact (overlay_taken nm o ps a' ob b). Qed.
Print Assumptions C70_taken.
(** The same for [apply_jsonnet_overlays], with a jsonnet that adds plain members *)
Theorem C70_applied nm print parse v b a l ps : faithful nm -> l <> [] -> expressible a -> (forall p, In p ps -> NoDup (map fst p)) ->
  jsonnet_adds nm print parse b (map (fun '(k, j) => (s2t k, j)) (members nm a)) l ps ->
  let r := apply_jsonnet_overlays v (with_serde nm print parse b) a l in
  ((forall k s j, In (k, s) parts -> decides k j ps -> conforms nm s j) -> exists a', r = Ret a') /\
  forall a', r = Ret a' ->
    (forall k j, In (k, j) (members nm a) -> (forall p, In p ps -> ~ names_part k p) -> exists w, In (k, w) (members nm a') /\ reordered j w) /\
    (forall c k j, expressible c -> In (k, j) (members nm c) -> decides k j ps -> exists w, In (k, w) (members nm a') /\ reordered j w).
Proof. exact (fun FN => overlays_applied nm FN print parse v b a l ps). Qed.
Print Assumptions C70_applied.
Example C70_nonvacuous : exists a', let l := [pth "/w/a.jsonnet"; pth "/o/b.jsonnet"] in
  jsonnet_adds ex_numerals (fun _ => s2t "{json}") ex_parse ex_serde (map (fun '(k, j) => (s2t k, j)) (members ex_numerals ex_adaptation)) l ex_overlays /\
  (forall p, In p ex_overlays -> NoDup (map fst p)) /\
  apply_jsonnet_overlays ex_env ex_serde ex_adaptation l = Ret a' /\ ad_name a' = s2t "Other" /\ ad_sectors a' = [] /\
  ad_volumes a' = [(s2t "V", Sectors.mkVolume (s2t "V") 100 200 [(f64_of_Z 1, f64_of_Z 2)])] /\ ad_positions a' = ad_positions ex_adaptation /\
  decides "volumes" (JObj [(s2t "V", ex_volume)]) ex_overlays /\
  ~ conforms ex_numerals (SMap s_volume) (JObj [(s2t "V", ex_public)]).
Proof.
  eexists. cbv zeta. split; [exact ex_adds|]. split.
  { intros p [<-|[<-|[]]]; apply nodupb_NoDup; vm_compute; reflexivity. }
  split; [vm_compute; reflexivity|]. split; [reflexivity|]. split; [reflexivity|]. split; [vm_compute; reflexivity|]. split; [vm_compute; reflexivity|]. split.
  - eexists [_], _, []. split; [reflexivity|]. split; [|intros q []]. exists [(s2t "sectors", no_json)], []. split; [reflexivity|].
    intros [N|[]]. vm_compute in N. discriminate.
  - intros C. apply (accepts_map ex_numerals (c_volume ex_numerals) s_volume (accepts_volume ex_numerals)) in C. destruct C as [x C]. vm_compute in C. discriminate.
Qed.

(** ** C71: what is loaded survives its JSON form.  Refuted for numbers that are not finite *)
Theorem C71_font_size_refuted : exists v r a, from_prf v r = Ret a /\ forall nm, of_value nm (to_value nm a) = None.
Proof.
  exists inf_env, ex_prf, inf_adaptation. split; [vm_compute; reflexivity|]. intros nm. apply (font_infinite nm _ false). reflexivity.
Qed.
Print Assumptions C71_font_size_refuted.
Theorem C71_zoom_refuted : exists v r a b, from_prf v r = Ret a /\ (forall nm, faithful nm -> of_value nm (to_value nm a) = Some b) /\ ad_maps a <> ad_maps b.
Proof.
  exists zoom_env, ex_prf, zoom_adaptation, unzoomed. split; [vm_compute; reflexivity|]. split; [|vm_compute; discriminate].
  intros nm FN. rewrite C68_document, ex_zoomed_alike, <- C68_document. exact (C68_read_back nm unzoomed FN ex_unzoomed).
Qed.
Print Assumptions C71_zoom_refuted.
