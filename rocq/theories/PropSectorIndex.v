(** Property theorems: the sector index (C18, C19, C20).

    [load] is any arrangement of the entries into a tree (rstar's bulk_load), [contains] any
    containment test that only accepts points within the bounding box of the border. *)
From Coq Require Import Reals.
From Flocq Require Import Core BinarySingleNaN.
From Verif Require Import Base Float FloatOrder Sectors SectorIndex SpecSectorIndex SectorIndexProofs.

(** C18 *)
Theorem C18_find_sector : forall load contains d p level,
  load_ok load -> contains_ok contains -> data_ok d -> f32_ok level ->
  (forall id v, indexed d id v -> (v_lower v < 16777216)%N /\ (v_upper v < 16777216)%N) ->
  match q_find load contains (mkAdaptation d None) p level with
  | Some id => candidate contains d p level id /\ forall id', candidate contains d p level id' -> alpha_le id id'
  | None => forall id, ~ candidate contains d p level id
  end.
Proof. exact find_sector_spec. Qed.
Print Assumptions C18_find_sector.

(** The answer depends neither on the arrangement of the tree nor on the order in which the hash
    maps are iterated. *)
Theorem C18_order_irrelevant : forall load load' contains secs secs' vols vols' p level,
  load_ok load -> load_ok load' -> contains_ok contains ->
  data_ok (secs, vols) -> f32_ok level ->
  (forall id v, indexed (secs, vols) id v -> (v_lower v < 16777216)%N /\ (v_upper v < 16777216)%N) ->
  NoDup (keys vols) -> Permutation secs secs' -> Permutation vols vols' ->
  q_find load contains (mkAdaptation (secs, vols) None) p level =
  q_find load' contains (mkAdaptation (secs', vols') None) p level.
Proof. exact find_sector_order. Qed.
Print Assumptions C18_order_irrelevant.

Theorem C18_volumes_at : forall load contains d p,
  load_ok load -> contains_ok contains -> data_ok d -> forall id v,
  In (id, v) (q_at load contains (mkAdaptation d None) p) <-> indexed d id v /\ contains (v_border v) p = true.
Proof. intros load contains d p LD CO OK. exact (volumes_at_spec load contains LD d p CO OK). Qed.
Print Assumptions C18_volumes_at.

(** Levels of 2^24 feet and more are compared after rounding to f32, with a wrong answer at the
    boundary. *)
Theorem C18_huge_levels_refuted : exists v level,
  f32_ok level /\ level_in level v = true /\ ~ is_at_level v level.
Proof. exact huge_levels_refuted. Qed.
Print Assumptions C18_huge_levels_refuted.

(** C19: an adaptation starts with an empty cache ([from_prf], deserialisation, [Default]) or is
    obtained by operations from one.  The three queries depend on the state only through the tree
    [fst (get_or_build ..)]; it is the tree of the data at the last rebuild, whatever happened
    before and after it, *)
Theorem C19_last_rebuild_decides : forall load contains a pre post p p' level, no_rebuild post ->
  let fresh := mkAdaptation (ad_data (run load a pre)) None in
  let s := run load a (pre ++ ORebuild :: post) in
  q_find load contains s p level = q_find load contains fresh p level /\
  q_at load contains s p = q_at load contains fresh p /\
  q_line load s p p' = q_line load fresh p p'.
Proof.
  intros load contains a pre post p p' level NR. cbv zeta. unfold q_find, q_at, q_line.
  rewrite tree_after_rebuild by exact NR. auto.
Qed.
Print Assumptions C19_last_rebuild_decides.

(** and without rebuild that of the data at the first query. *)
Theorem C19_first_query_decides : forall load contains d pre post p p' level,
  untouched pre -> no_rebuild post ->
  let fresh := mkAdaptation (ad_data (run load (mkAdaptation d None) pre)) None in
  let s := run load (mkAdaptation d None) (pre ++ OQuery :: post) in
  q_find load contains s p level = q_find load contains fresh p level /\
  q_at load contains s p = q_at load contains fresh p /\
  q_line load s p p' = q_line load fresh p p'.
Proof.
  intros load contains d pre post p p' level U NR. cbv zeta. unfold q_find, q_at, q_line.
  rewrite tree_after_query by assumption. auto.
Qed.
Print Assumptions C19_first_query_decides.

(** A query that is itself the first one sees the current data. *)
Theorem C19_first_query_current : forall load contains d pre p p' level, untouched pre ->
  let s := run load (mkAdaptation d None) pre in
  let fresh := mkAdaptation (ad_data s) None in
  q_find load contains s p level = q_find load contains fresh p level /\
  q_at load contains s p = q_at load contains fresh p /\
  q_line load s p p' = q_line load fresh p p'.
Proof.
  intros load contains d pre p p' level U. cbv zeta. unfold q_find, q_at, q_line.
  rewrite tree_first_query by exact U. auto.
Qed.
Print Assumptions C19_first_query_current.

(** Queries, clones and rebuilds leave the data alone; mutations apply in order. *)
Theorem C19_data : forall load a l, ad_data (run load a l) =
  fold_left (fun d o => match o with OMutate f => f d | _ => d end) l (ad_data a).
Proof. intros load a l. exact (data_run load l a). Qed.
Print Assumptions C19_data.

(** C20 *)
Theorem C20_near_line : forall load d a b,
  load_ok load -> data_ok d -> point_ok a -> point_ok b -> forall id v,
  In (id, v) (q_line load (mkAdaptation d None) a b) <-> indexed d id v /\ near_line (v_border v) a b.
Proof. intros load d a b LD. exact (volumes_near_line_spec load (fun _ _ => false) LD d a b). Qed.
Print Assumptions C20_near_line.

(** Hypotheses met, answers as expected. *)
Definition ex_load (l : list entry) : rtree :=
  match l with e :: l => RNode [RNode [RLeaf e]; RNode (map RLeaf l)] | [] => RNode [] end.
Definition ex_contains (border : list point) (p : point) : bool :=
  existsb (fun a => SFleb (px a) (px p)) border && existsb (fun a => SFleb (px p) (px a)) border
  && (existsb (fun a => SFleb (py a) (py p)) border && existsb (fun a => SFleb (py p) (py a)) border).
Lemma ex_load_ok : load_ok ex_load.
Proof.
  intros [|e l]; cbn; [constructor|]. constructor. rewrite app_nil_r.
  induction l as [|x l IH]; cbn; [constructor|]. constructor. exact IH.
Qed.
Lemma ex_contains_ok : contains_ok ex_contains.
Proof.
  intros border p H. unfold ex_contains in H. rewrite !andb_true_iff, !existsb_exists in H.
  destruct H as [[[a [A A']] [b [B B']]] [[c [C C']] [d [D D']]]]. split; eauto 10.
Qed.

Definition square (x y w : Z) : list point :=
  let p a b := (f64_of_Z a, f64_of_Z b) in
  [p x y; p (x + w) y; p (x + w) (y + w); p x (y + w); p x y]%Z.
Definition ex_data : data :=
  let sec id vols prio := (s2t id, mkSector (s2t id) (map s2t prio) [] (map s2t vols) [] []) in
  ([sec "SEC2" ["V1"] ["POS"]; sec "SEC1" ["V2"; "nope"] ["POS"]; sec "SEC0" ["V1"] []]%string,
   [(s2t "V1", mkVolume (s2t "V1") 0 10000 (square 0 0 10));
    (s2t "V2", mkVolume (s2t "V2") 5000 20000 (square 5 5 10))]).

Example C18_C20_nonvacuous :
  let find x y l := q_find ex_load ex_contains (mkAdaptation ex_data None) (f64_of_Z x, f64_of_Z y) (f32_of_Z l) in
  find 7%Z 7%Z 6000%Z = Some (s2t "SEC1") /\ find 7%Z 7%Z 10000%Z = Some (s2t "SEC1") /\
  find 7%Z 7%Z 4999%Z = Some (s2t "SEC2") /\ find 7%Z 7%Z 20000%Z = None /\ find 2%Z 2%Z 10000%Z = None /\
  map fst (q_line ex_load (mkAdaptation ex_data None) (f64_of_Z (-5), f64_of_Z 1) (f64_of_Z 1, f64_of_Z 4))
    = [s2t "SEC2"].
Proof. vm_compute. auto 10. Qed.
Lemma ex_data_ok : data_ok ex_data.
Proof.
  assert (G : forallb (fun v => forallb (fun p => match px p, py p with S754_nan, _ | _, S754_nan => false | _, _ => true end)
                                   (v_border (snd v))) (snd ex_data) = true) by (vm_compute; reflexivity).
  intros vid v p E I. apply get_In in E.
  rewrite forallb_forall in G. specialize (G _ E). rewrite forallb_forall in G. specialize (G _ I).
  split; intros N; rewrite N in G; [discriminate|]. destruct (px p); discriminate.
Qed.
Example C18_hypotheses : load_ok ex_load /\ contains_ok ex_contains /\ data_ok ex_data /\ f32_ok (f32_of_Z 6000) /\
  (forall id v, indexed ex_data id v -> (v_lower v < 16777216)%N /\ (v_upper v < 16777216)%N).
Proof.
  split; [exact ex_load_ok|]. split; [exact ex_contains_ok|]. split; [exact ex_data_ok|].
  split; [split; vm_compute; reflexivity|].
  intros id v [k [s [vid [_ [_ [_ [_ G]]]]]]]. apply get_In in G.
  cbn [snd ex_data In] in G. destruct G as [G|[G|[]]]; injection G as _ <-; cbn; lia.
Qed.
Example C19_nonvacuous :
  let a := mkAdaptation ex_data None in
  let gone := OMutate (fun d => ([], snd d)) in
  let p := (f64_of_Z 7, f64_of_Z 7) in
  q_find ex_load ex_contains (run ex_load a [OQuery; gone; OClone]) p (f32_of_Z 6000) = Some (s2t "SEC1") /\
  q_find ex_load ex_contains (run ex_load a [OQuery; gone; ORebuild; OQuery]) p (f32_of_Z 6000) = None /\
  q_find ex_load ex_contains (run ex_load a [OClone; gone; OQuery]) p (f32_of_Z 6000) = None.
Proof. vm_compute. auto. Qed.
