(** Proofs about loading a profile, continued: keys are unique, numbers are no NaN, and when loading succeeds (C60, C63). *)
From Coq Require Import Reals ZifyBool ZifyN ZifyNat.
From Flocq Require Import Core BinarySingleNaN.
From Verif Require Import Base Num Peg Float FloatReal DmsReal Paths Colours Settings Trees Decode SpecSectors SpecSectorIndex.
From Verif Require Prf PathProofs SctData SctParse EseParse AirwayTxt Airways SymbologyParse TopskyParse Icao Sectors SectorsProofs SectorsFromEse SectorIndex
  SectorIndexProofs Constraints Locations SpecLocations LocationsProofs LocationsResolve Maps MapsFiling SctItems SctItemsProofs SpecPrf.
From Verif Require Import Adaptation SpecAdaptation AdaptationProofs.
Local Open Scope string_scope.
Local Open Scope list_scope.

#[local] Existing Instance EseParse.EqDec_ese_name.

(** ** Keys *)
Lemma ofold_inv {A B} (P : B -> Prop) (f : B -> A -> outcome B) l : (forall b x b', P b -> f b x = Ret b' -> P b') ->
  forall b b', P b -> ofold f l b = Ret b' -> P b'.
Proof.
  intros S. induction l as [|x l IH]; intros b b' H E; cbn [ofold] in E; [injection E as <-; exact H|].
  ret E b1 E1. exact (IH _ _ (S _ _ _ H E1) E).
Qed.
Lemma omap_inv {A B} (f : A -> outcome B) l : forall l', omap f l = Ret l' -> forall y, In y l' -> exists x, In x l /\ f x = Ret y.
Proof.
  induction l as [|x l IH]; intros l' E y I; cbn [omap] in E.
  - injection E as <-. destruct I.
  - ret E y1 E1. ret E l1 E2. injection E as <-. destruct I as [<-|I]; [exists x; cbn; auto|].
    destruct (IH _ E2 y I) as [z [J F]]. exists z. cbn. auto.
Qed.
Lemma fold_left_inv {A B} (P : B -> Prop) (f : B -> A -> B) l : (forall b x, P b -> P (f b x)) -> forall b, P b -> P (fold_left f l b).
Proof. intros S. induction l as [|x l IH]; intros b H; cbn [fold_left]; auto. Qed.
Lemma keys_map_val {K V W} (f : K -> V -> W) (l : list (K * V)) : keys (map (fun '(k, x) => (k, f k x)) l) = keys l.
Proof. unfold keys. induction l as [|[k x] l IH]; cbn; congruence. Qed.

Lemma collected_nodup l : NoDup (keys (EseParse.co_sectors (fold_left EseParse.collect_sectors l (EseParse.mkCollected [] [] [] [] [])))).
Proof.
  apply (fold_left_inv (fun c => NoDup (keys (EseParse.co_sectors c)))); [|constructor].
  intros [s ci li bo co] x H. destruct x; cbn in *; auto. apply NoDup_put, H.
Qed.
Lemma ese_sectors_nodup t e : EseParse.parse_ese t = Ret e -> NoDup (keys (EseParse.e_sectors e)).
Proof.
  unfold EseParse.parse_ese. intros H. ret H kids EK. ret H l EL.
  assert (N : forall x, get EseParse.NAirspace (put_all l []) = Some (EseParse.SecSectors x) -> NoDup (keys (fst x))).
  { intros x G. rewrite get_put_all in G. destruct (get EseParse.NAirspace (rev l)) as [s|] eqn:GR; [|discriminate]. injection G as ->.
    apply get_In in GR. apply in_rev in GR. destruct (omap_inv _ _ _ EL _ GR) as [p [_ E]]. unfold EseParse.ese_section_of in E.
    destruct (is_rule p "position_section"); [ret E u EU; discriminate|].
    destruct (is_rule p "airspace_section").
    { ret E u EU. injection E as <-. cbn [EseParse.combine_sectors fst]. rewrite keys_map_val. apply collected_nodup. }
    destruct (is_rule p "sidsstars_section"); [ret E u EU; discriminate | discriminate]. }
  destruct (get EseParse.NAirspace (put_all l [])) as [s|]; [|injection H as <-; constructor].
  destruct s as [m|x|m|]; try (injection H as <-; constructor).
  specialize (N x eq_refl). destruct x as [secs cons]. injection H as <-. exact N.
Qed.

Lemma store_colour_nodup c p c' : NoDup (keys c) -> SctParse.store_colour c p = Ret c' -> NoDup (keys c').
Proof. intros N H. unfold SctParse.store_colour in H. ret H d ED. injection H as <-. destruct d as [[n x]|]; [apply NoDup_put, N | exact N]. Qed.
Lemma info_lines_nodup ts : forall info i y c r, NoDup (keys c) -> SctParse.info_lines ts info i y c = Ret r -> NoDup (keys (snd r)).
Proof.
  induction ts as [|p ts IH]; intros info i y c r N H; cbn [SctParse.info_lines] in H; [injection H as <-; exact N|].
  destruct (is_rule p "colour_definition").
  - ret H c1 E1. exact (IH _ _ _ _ _ (store_colour_nodup _ _ _ N E1) H).
  - ret H x E1. destruct x as [info' y']. exact (IH _ _ _ _ _ N H).
Qed.
Lemma entries_nodup {A} (f : tree -> outcome (option A)) ts : forall c r, NoDup (keys c) -> SctParse.entries f ts c = Ret r -> NoDup (keys (snd r)).
Proof.
  induction ts as [|p ts IH]; intros c r N H; cbn [SctParse.entries] in H; [injection H as <-; exact N|].
  destruct (is_rule p "colour_definition").
  - ret H c1 E1. exact (IH _ _ (store_colour_nodup _ _ _ N E1) H).
  - ret H x E1. ret H lc E2. destruct lc as [l c']. injection H as <-. exact (IH _ _ N E2).
Qed.
Lemma listed_nodup {A} (f : tree -> outcome (option A)) sec n p c r : NoDup (keys c) -> SctParse.listed f sec n p c = Ret r -> NoDup (keys (snd r)).
Proof. intros N H. unfold SctParse.listed in H. ret H lc E. destruct lc as [l c']. injection H as <-. exact (entries_nodup _ _ _ _ N E). Qed.
Lemma section_nodup p c r : NoDup (keys c) -> SctParse.parse_section p c = Ret r -> NoDup (keys (snd r)).
Proof.
  intros N H. unfold SctParse.parse_section in H. cbv zeta in H.
  destruct (is_rule p "info_section"). { ret H ic E. destruct ic as [i c']. injection H as <-. exact (info_lines_nodup _ _ _ _ _ _ N E). }
  repeat match type of H with (if ?b then _ else _) = _ => destruct b; [exact (listed_nodup _ _ _ _ _ _ N H)|] end.
  injection H as <-. exact N.
Qed.
Lemma sct_colours_nodup t s : SctParse.parse_sct t = Ret s -> NoDup (keys (SctData.sc_colours s)).
Proof.
  unfold SctParse.parse_sct. intros H. ret H kids EK. ret H st E. destruct st as [secs cols]. injection H as <-. cbn [SctData.sc_colours].
  apply (ofold_inv (fun st => NoDup (keys (snd st))) _ _) in E; [exact E | | constructor].
  intros [s0 c0] p st' N H. cbn [snd] in N. unfold SctParse.sct_step in H. destruct (is_rule p "colour_definition").
  - ret H c1 E1. injection H as <-. exact (store_colour_nodup _ _ _ N E1).
  - ret H x E1. destruct x as [[n s] c]. injection H as <-. exact (section_nodup _ _ _ N E1).
Qed.

Lemma airports_nodup t l : Icao.parse_airports t = Ret l -> NoDup (keys l).
Proof.
  unfold Icao.parse_airports. intros H. ret H kids EK. apply (ofold_inv (fun m => NoDup (keys m)) _ _) in H; [exact H | | constructor].
  intros b x b' N E. unfold Icao.airport_pair in E. destruct (is_rule x "definition"); [|injection E as <-; exact N]. cbv zeta in E.
  ret E p1 E1. destruct p1. ret E p2 E2. destruct p2. ret E p3 E3. destruct p3. injection E as <-. apply NoDup_put_new, N.
Qed.
Lemma navdata_nodup t l : Icao.parse_navdata_airports t = Ret l -> NoDup (keys l).
Proof.
  unfold Icao.parse_navdata_airports. intros H. ret H kids EK. apply (ofold_inv (fun m => NoDup (keys m)) _ _) in H; [exact H | | constructor].
  intros b x b' N E. unfold Icao.navdata_pair in E. destruct (is_rule x "definition"); [|injection E as <-; exact N]. cbv zeta in E.
  ret E p1 E1. destruct p1. ret E p2 E2. destruct p2. ret E p3 E3. ret E p4 E4. destruct p4. ret E p5 E5. ret E p6 E6. destruct p6.
  injection E as <-. apply NoDup_put_new, N.
Qed.
Lemma settings_colours_nodup t r : TopskyParse.parse_topsky_settings t = Ret r -> NoDup (keys (fst r)).
Proof.
  unfold TopskyParse.parse_topsky_settings. intros H. ret H kids EK. ret H l EL.
  assert (E : fold_left TopskyParse.setting_step (Maps.filter_map (fun o => o) l) ([], []) = r) by congruence. rewrite <- E. clear.
  apply (fold_left_inv (fun st => NoDup (keys (fst st)))); [|constructor]. intros [c1 s1] x N. destruct x; cbn; [apply NoDup_put, N | exact N].
Qed.
Lemma topsky_colours_nodup up a b c t : TopskyParse.parse_topsky up a b c = Ret t -> NoDup (keys (TopskyParse.tk_colours t)).
Proof.
  unfold TopskyParse.parse_topsky. intros H. ret H cs EC. destruct cs as [cols sets]. ret H sy ES. ret H m EM.
  assert (E : TopskyParse.tk_colours t = put_all (TopskyParse.tm_colours m) cols) by (injection H as <-; reflexivity). rewrite E. clear E H.
  apply NoDup_put_all. destruct a as [a|]; [|discriminate]. exact (settings_colours_nodup _ _ EC).
Qed.

(** ** Numbers *)
Lemma fdiv_1e6_not_nan z : fdiv (f64_of_Z z) (f64_of_Z 1000000) <> S754_nan.
Proof.
  destruct (of_Z_is 1000000 ltac:(lia)) as [c [Ec [Rc [Fc _]]]]. rewrite Ec.
  unfold f64_of_Z, fdiv. rewrite (binary_normalize_equiv 53 1024 prec64 emax64), (SFdiv_equiv 53 1024 prec64 emax64).
  set (b := BinarySingleNaN.binary_normalize 53 1024 prec64 emax64 mode_NE z 0 false).
  assert (Nb : is_nan b = false) by apply is_nan_binary_normalize.
  assert (NZ : B2R c <> 0%R) by (rewrite Rc; apply IZR_neq; lia).
  pose proof (Bdiv_correct 53 1024 prec64 emax64 mode_NE b c NZ) as C.
  destruct (Rlt_bool _ _).
  - destruct C as [_ [C _]]. destruct (is_finite b) eqn:Fb; [intros X; destruct (Bdiv mode_NE b c); discriminate|].
    destruct b as [| s | |]; try discriminate. destruct c as [s'| | |]; cbn in *; try discriminate; congruence.
  - rewrite C. unfold binary_overflow. destruct (overflow_to_inf _ _); discriminate.
Qed.
Lemma dequantize_ok c : point_ok (Sectors.dequantize c).
Proof. split; apply fdiv_1e6_not_nan. Qed.

(** ** Sectors *)
Lemma valid_entry_perm l l' id s : Permutation l l' -> valid_entry l id s <-> valid_entry l' id s.
Proof. intros P. unfold valid_entry. rewrite (Permutation_in' (eq_refl (id, s)) P). reflexivity. Qed.
Lemma sectors_ok_perm l l' cc vols secs : Permutation l l' -> sectors_ok l cc vols secs -> sectors_ok l' cc vols secs.
Proof.
  intros P [A B C D E F G N].
  assert (V : forall id s, valid_entry l id s <-> valid_entry l' id s) by (intros; apply valid_entry_perm, P).
  constructor; try assumption.
  - intros id. specialize (A id). destruct (get id vols).
    + destruct A as [s [ring [H K]]]. exists s, ring. rewrite <- V. auto.
    + intros s. rewrite <- V. apply A.
  - intros k sc I. destruct (D k sc I) as [H [rw [K M]]]. split; [exact H|]. exists rw. split; [exact K|]. intros id. rewrite M.
    split; intros [s Q]; exists s; [rewrite <- V | rewrite V]; exact Q.
  - intros id s H. apply (E id s), V, H.
  - intros k sc a I. destruct (G k sc a I) as [G1 G2]. split; [rewrite G1 | rewrite G2]; split; intros [id [s [H [K L]]]]; exists id, s;
      (split; [exact H|]; split; [|exact L]); first [exact (Permutation_in _ P K) | exact (Permutation_in _ (Permutation_sym P) K)].
Qed.
Lemma NoDup_keys_perm {K V} (l l' : list (K * V)) : Permutation l l' -> NoDup (keys l) -> NoDup (keys l').
Proof. intros P. apply Permutation_NoDup, Permutation_map, P. Qed.
Lemma ese_sectors_ok v e : orders_ok v -> NoDup (keys (EseParse.e_sectors e)) ->
  exists vols secs, ese_sectors_of v e = Some (vols, secs) /\ sectors_ok (EseParse.e_sectors e) (ccw v) vols secs.
Proof.
  intros O N. unfold ese_sectors_of.
  destruct (SectorsFromEse.from_ese_spec (fun id => order v (SRing id) _) (ccw v) (fun id l => O (SRing id) _ l) (order v SEseSectors _ (EseParse.e_sectors e))
    (order v SGroups _)) as [vols [secs [E OK]]].
  - exact (NoDup_keys_perm _ _ (Permutation_sym (O _ _ _)) N).
  - intros l. apply O.
  - exists vols, secs. split; [exact E|]. exact (sectors_ok_perm _ _ _ _ _ (O _ _ _) OK).
Qed.
Lemma made_sectors v r F t q a : orders_ok v -> made_of v r F t q a -> NoDup (keys (EseParse.e_sectors (f_ese F))) /\
  sectors_ok (EseParse.e_sectors (f_ese F)) (ccw v) (ad_volumes a) (ad_sectors a).
Proof.
  intros O M. destruct (fr_ese _ _ _ (mo_files _ _ _ _ _ _ M)) as [p [b [_ [_ PE]]]]. apply ese_sectors_nodup in PE. split; [exact PE|].
  destruct (ese_sectors_ok v (f_ese F) O PE) as [vols [secs [E OK]]]. rewrite (mo_sectors _ _ _ _ _ _ M) in E. injection E as <- <-. exact OK.
Qed.

Section Find.
  Variables (v : env) (contains : list point -> point -> bool) (e : EseParse.ese) (a : adaptation).
  Hypothesis O : orders_ok v.
  Hypothesis LD : load_ok (load v).
  Hypothesis CO : contains_ok contains.
  Hypothesis CC : ccw_ok v.
  Hypothesis ND : NoDup (keys (EseParse.e_sectors e)).
  Hypothesis OK : sectors_ok (EseParse.e_sectors e) (ccw v) (ad_volumes a) (ad_sectors a).
  Hypothesis IX : ad_index a = Some (tree_of v (ad_sectors a) (ad_volumes a)).
  Let d : SectorIndex.data := (order v SIndex _ (ad_sectors a), ad_volumes a).

  Lemma find_data_ok : data_ok d.
  Proof.
    intros vid vol p G I. cbn [snd d] in G. pose proof (so_volumes _ _ _ _ OK vid) as V. rewrite G in V.
    destruct V as [s [ring [_ [-> _]]]]. cbn [Sectors.v_border] in I. apply CC in I. apply in_map_iff in I. destruct I as [c [<- _]]. apply dequantize_ok.
  Qed.
  (** the volumes in the index, in terms of the definitions *)
  Lemma find_indexed id vol : indexed d id vol <-> exists vid s, valid_entry (EseParse.e_sectors e) vid s /\ Sectors.es_owner s <> [] /\
    get vid (ad_volumes a) = Some vol /\ Sectors.v_lower vol = Sectors.es_bottom s /\ Sectors.v_upper vol = Sectors.es_top s /\ in_sector a id vid.
  Proof.
    split.
    - intros [k [sc [vid [I [<- [P [J G]]]]]]]. cbn [fst snd d] in I, G. apply (Permutation_in _ (O _ _ _)) in I.
      pose proof (so_volumes _ _ _ _ OK vid) as V. rewrite G in V. destruct V as [s [ring [VE [EV _]]]]. exists vid, s.
      destruct (so_members _ _ _ _ OK k sc I) as [_ [rw [_ M]]]. destruct (proj1 (M vid) J) as [s' [VE' [EO _]]].
      assert (s' = s) as -> by exact (SectorsFromEse.NoDup_keys_inj _ _ _ _ ND (proj1 VE') (proj1 VE)).
      split; [exact VE|]. rewrite EO. split; [exact P|]. split; [exact G|]. rewrite EV. cbn. split; [reflexivity|]. split; [reflexivity|].
      exists sc. destruct (so_named _ _ _ _ OK k sc I) as [-> _]. auto.
    - intros [vid [s [VE [EO [G [_ [_ [sc [I J]]]]]]]]]. exists id, sc, vid. cbn [fst snd d].
      split; [exact (Permutation_in _ (Permutation_sym (O _ _ _)) I)|]. destruct (so_named _ _ _ _ OK id sc I) as [NM _].
      split; [symmetry; exact NM|]. destruct (so_members _ _ _ _ OK id sc I) as [_ [rw [_ M]]]. destruct (proj1 (M vid) J) as [s' [VE' [EO' _]]].
      assert (s' = s) as -> by exact (SectorsFromEse.NoDup_keys_inj _ _ _ _ ND (proj1 VE') (proj1 VE)). rewrite <- EO'. auto.
  Qed.
  Lemma find_candidate p level id : candidate contains d p level id <-> exists vid s, covers contains e a p level vid s /\ in_sector a id vid.
  Proof.
    split.
    - intros [vol [I [C L]]]. apply find_indexed in I. destruct I as [vid [s [VE [EO [G [B [T J]]]]]]]. exists vid, s. split; [|exact J].
      unfold is_at_level in L. rewrite B, T in L. unfold covers. eauto 8.
    - intros [vid [s [[VE [EO [[vol [G C]] L]]] J]]]. exists vol.
      pose proof (so_volumes _ _ _ _ OK vid) as V. rewrite G in V. destruct V as [s' [ring [VE' [EV _]]]].
      assert (s' = s) as -> by exact (SectorsFromEse.NoDup_keys_inj _ _ _ _ ND (proj1 VE') (proj1 VE)).
      split; [|split; [exact C | unfold is_at_level; rewrite EV; exact L]].
      apply find_indexed. exists vid, s. rewrite EV in *. cbn. auto 8.
  Qed.
  Lemma find_levels : levels_ok e -> forall id vol, indexed d id vol -> (Sectors.v_lower vol < 16777216)%N /\ (Sectors.v_upper vol < 16777216)%N.
  Proof. intros L id vol I. apply find_indexed in I. destruct I as [vid [s [[VE _] [_ [_ [-> [-> _]]]]]]]. exact (L vid s VE). Qed.
  Lemma find_ok p level : levels_ok e -> f32_ok level ->
    match find_sector v contains a p level with
    | Some id => (exists vid s, covers contains e a p level vid s /\ in_sector a id vid) /\
                 forall id' vid s, covers contains e a p level vid s -> in_sector a id' vid -> alpha_le id id'
    | None => forall vid s, ~ covers contains e a p level vid s
    end.
  Proof.
    intros L FL. unfold find_sector, index_of. rewrite IX. unfold tree_of. fold d.
    pose proof (SectorIndexProofs.find_sector_spec (load v) contains d p level LD CO find_data_ok FL (find_levels L)) as S.
    destruct (SectorIndex.find_sector contains (SectorIndex.build_tree (load v) d) p level) as [id|].
    - destruct S as [S1 S2]. split; [apply find_candidate, S1|]. intros id' vid s C J. apply S2, find_candidate. eauto.
    - intros vid s C. destruct (so_every _ _ _ _ OK vid s (proj1 C)) as [k [sc [I J]]]. apply (S k), find_candidate. exists vid, s.
      split; [exact C|]. exists sc. auto.
  Qed.
  Lemma at_ok p id vol : In (id, vol) (volumes_at v contains a p) <->
    exists vid s, valid_entry (EseParse.e_sectors e) vid s /\ Sectors.es_owner s <> [] /\ in_sector a id vid /\
      get vid (ad_volumes a) = Some vol /\ contains (Sectors.v_border vol) p = true.
  Proof.
    unfold volumes_at, index_of. rewrite IX. unfold tree_of. fold d.
    pose proof (SectorIndexProofs.volumes_at_spec (load v) contains LD d p CO find_data_ok id vol) as S. rewrite S. rewrite find_indexed. split.
    - intros [[vid [s [VE [EO [G [_ [_ J]]]]]]] C]. exists vid, s. auto.
    - intros [vid [s [VE [EO [J [G C]]]]]]. split; [|exact C]. exists vid, s.
      pose proof (so_volumes _ _ _ _ OK vid) as V. rewrite G in V. destruct V as [s' [ring [VE' [EV _]]]].
      assert (s' = s) as -> by exact (SectorsFromEse.NoDup_keys_inj _ _ _ _ ND (proj1 VE') (proj1 VE)). rewrite EV. cbn. rewrite <- EV. auto 8.
  Qed.
End Find.

(** ** Loading succeeds *)
Lemma join_ret w r d x : SpecPrf.directory (Prf.prf_path r) d -> exists q, Prf.join_settings_path w r x = Ret q.
Proof.
  intros D. destruct (PathProofs.resolves_total w (Prf.prf_path r) x d D) as [q H]. exists q. exact (PathProofs.resolves_ok _ _ _ _ _ D H).
Qed.
Lemma find_plugin_ret w r d dll f it : SpecPrf.directory (Prf.prf_path r) d -> exists o, Prf.find_plugin w r dll f it = Ret o.
Proof.
  intros D. induction it as [|[k x] it IH]; [eexists; reflexivity|]. cbn [Prf.find_plugin]. destruct (join_ret w r d x D) as [q ->]. cbn [obind].
  destruct (if eqb _ _ then f q else None); [eexists; reflexivity | exact IH].
Qed.
Lemma in_prf_dir_ret r d o : SpecPrf.directory (Prf.prf_path r) d -> exists x, Prf.in_prf_dir r o = Ret x.
Proof. intros D. unfold Prf.in_prf_dir. rewrite (PathProofs.directory_parent _ _ D). destruct o; eexists; reflexivity. Qed.
Lemma topsky_dir_ret v r d : SpecPrf.directory (Prf.prf_path r) d -> exists o, topsky_dir v r = Ret o.
Proof.
  intros D. unfold topsky_dir, Prf.topsky_path. destruct (find_plugin_ret (cwd v) r d "TopSky.dll" parent (order v SPrf _ (Prf.settings r)) D) as [o ->].
  exact (in_prf_dir_ret _ _ _ D).
Qed.
Lemma squawks_file_ret v r d : SpecPrf.directory (Prf.prf_path r) d -> exists o, squawks_file v r = Ret o.
Proof.
  intros D. unfold squawks_file, Prf.squawks_path.
  destruct (find_plugin_ret (cwd v) r d "Squawks.dll" (fun p => option_map (fun d => join d (pth "squawks.json")) (parent p)) (order v SPrf _ (Prf.settings r)) D) as [o ->].
  exact (in_prf_dir_ret _ _ _ D).
Qed.
Lemma omap_ret {A B} (f : A -> outcome B) l : (forall x, exists y, f x = Ret y) -> exists l', omap f l = Ret l'.
Proof.
  intros H. induction l as [|x l [l' IH]]; [eexists; reflexivity|]. cbn [omap]. destruct (H x) as [y ->]. cbn [obind]. rewrite IH. eexists. reflexivity.
Qed.
Lemma recent_ret w r d n : SpecPrf.directory (Prf.prf_path r) d -> exists o, Prf.recent_path w r n = Ret o.
Proof.
  intros D. unfold Prf.recent_path. destruct (get _ _); [|eexists; reflexivity]. destruct (join_ret w r d t D) as [q ->]. eexists. reflexivity.
Qed.

Lemma resolve_ret dst L l : Forall SpecLocations.plain_digits l -> exists x, Locations.resolve_wpts dst L l = Ret x.
Proof.
  induction 1 as [|d l P _ [x IH]]; [eexists; reflexivity|]. cbn [Locations.resolve_wpts]. destruct (LocationsResolve.convert_plain dst L d P) as [o ->].
  rewrite IH. destruct o; eexists; reflexivity.
Qed.
Definition proc_in (x : Locations.sid_star) := match x with Locations.Sid p => p | Locations.Star p => p end.
Lemma from_euroscope_ret dst i : (forall x, In x (Locations.i_procs i) -> Forall SpecLocations.plain_digits (Locations.ep_wpts (proc_in x))) ->
  exists L, Locations.from_euroscope dst i = Ret L.
Proof.
  unfold Locations.from_euroscope. generalize (Locations.base_locations i) as L0. induction (Locations.i_procs i) as [|x l IH]; intros L0 H; [eexists; reflexivity|].
  cbn [fold_left]. destruct (resolve_ret dst L0 _ (H x (or_introl eq_refl))) as [w E].
  destruct x as [p|p]; cbn [Locations.add_sid_star proc_in] in *; unfold Locations.conv_proc; rewrite E; apply IH; intros y I; apply H; right; exact I.
Qed.
Lemma locations_ret v F : plain_ese (f_ese F) -> exists L, locations_of v F = Ret L.
Proof.
  intros P. apply from_euroscope_ret. intros x I. cbn in I. apply in_map_iff in I. destruct I as [y [<- I]]. specialize (P y I).
  destruct y; exact P.
Qed.
Lemma all_return_plain v L ls : Forall plain ls -> all_return v L ls = Ret tt.
Proof.
  intros P. unfold all_return. replace (forallb _ ls) with true; [reflexivity|]. symmetry. apply forallb_forall. intros l I.
  rewrite Forall_forall in P. specialize (P l I). destruct l as [p|d]; [reflexivity|]. cbn in P. cbn [Locations.convert_location].
  destruct (LocationsResolve.convert_plain (dest v) L d P) as [o ->]. reflexivity.
Qed.
Lemma sct_locations_plain s : plain_sct s -> Forall plain (sct_locations s).
Proof.
  intros [P1 P2]. unfold sct_locations. apply Forall_app. split; apply Forall_forall; intros l I.
  - apply in_flat_map in I. destruct I as [d [I1 I]]. apply in_flat_map in I. destruct I as [g [I2 I]]. apply in_concat in I. destruct I as [x [I3 I]].
    specialize (P1 d g x I1 I2 I3). rewrite Forall_forall in P1. exact (P1 l I).
  - apply in_map_iff in I. destruct I as [a [<- I]]. exact (P2 a I).
Qed.
Lemma drawn_plain rules : forall buf, Forall plain buf -> (forall x, In x rules -> Forall plain (rule_locations x)) -> Forall plain (drawn_locations buf rules).
Proof.
  induction rules as [|x rules IH]; intros buf B H; [constructor|].
  assert (Hx := H x (or_introl eq_refl)). assert (Hr : forall y, In y rules -> Forall plain (rule_locations y)) by (intros y I; apply H; right; exact I).
  destruct x; cbn [drawn_locations rule_locations] in *; try (apply IH; assumption); try (inversion Hx; constructor; [assumption | apply IH; assumption]);
    try (apply Forall_app; split; [assumption | apply IH; [first [assumption | constructor] | assumption]]).
  apply IH; [|assumption]. apply Forall_app. split; assumption.
Qed.
Lemma map_locations_plain c t : plain_topsky t -> Forall plain (map_locations c (TopskyParse.tk_maps t)).
Proof.
  intros P. apply Forall_forall. intros l I. unfold map_locations in I. apply in_flat_map in I. destruct I as [d [I1 I]].
  destruct (Maps.first_colour c (Maps.md_rules d)); [|destruct I].
  assert (X : Forall plain (drawn_locations [] (Maps.md_rules d))) by (apply drawn_plain; [constructor | intros x J; exact (P d x I1 J)]).
  rewrite Forall_forall in X. exact (X l I).
Qed.

Lemma loads v r F d : orders_ok v -> SpecPrf.directory (Prf.prf_path r) d -> files_read v r F ->
  (forall x, topsky_dir v r = Ret (Some x) -> topsky_files v x <> Panic) ->
  plain_ese (f_ese F) -> plain_sct (f_sct F) -> (forall t, topsky_data v r (Some t) -> plain_topsky t) ->
  exists a, from_prf v r = Ret a.
Proof.
  intros O D FR NP PE PS PT.
  destruct (fr_ese _ _ _ FR) as [p [b [_ [_ PA]]]]. apply ese_sectors_nodup in PA.
  destruct (ese_sectors_ok v (f_ese F) O PA) as [vols [secs [ES _]]].
  destruct (locations_ret v F PE) as [L EL].
  assert (exists t, topsky_data v r t) as [t ET].
  { destruct (topsky_dir_ret v r d D) as [[x|] E].
    - specialize (NP x E). destruct (topsky_files v x) as [t| |] eqn:T; [exists (Some t); cbn; eauto | exists None; cbn; eauto | contradiction].
    - exists None. left. exact E. }
  assert (exists q, squawks_data v r q) as [q EQ].
  { destruct (squawks_file_ret v r d D) as [[x|] E].
    - destruct (read v x) as [by_|] eqn:R; [destruct (json v by_) as [l|] eqn:J|].
      + exists (Some l). cbn. eauto.
      + exists None. right. eauto 6.
      + exists None. right. eauto 6.
    - exists None. left. exact E. }
  destruct (Constraints.extract_constraints (EseParse.e_constraints (f_ese F))) as [dep des] eqn:EC.
  assert (exists mp, maps_of v F t L = Ret mp) as [mp EM].
  { destruct t as [x|]; [|eexists; reflexivity]. cbn [maps_of]. rewrite (all_return_plain v L _ (map_locations_plain _ x (PT x ET))). cbn [obind].
    destruct (MapsFiling.from_topsky_spec (map_ctx v F (Some x) L) (TopskyParse.tk_overrides x) (TopskyParse.tk_maps x)) as [fo [ms [ns [-> _]]]].
    eexists. reflexivity. }
  destruct (SctItemsProofs.from_sct_spec fmt6 (items_ctx v F t L) (f_sct F)) as [si [EI _]].
  exists (mkAdaptation (SctData.in_name (SctData.sc_info (f_sct F))) (mkAllLocations L (f_airways F)) (from_ese_positions (EseParse.e_positions (f_ese F)))
    vols secs dep des mp (symbols_of F t) (colours_of v (f_symbology F) (f_sct F) t (coopans_setting (option_map TopskyParse.tk_settings t)))
    (styles_of v t) (the_settings v r (f_symbology F) t q) (f_aircraft F) (f_airlines F) si (Some (tree_of v secs vols))).
  eapply (from_prf_made v r F t q).
  - constructor; first [assumption | reflexivity].
  - apply omap_ret. intros n. exact (recent_ret _ _ _ n D).
  - apply all_return_plain, sct_locations_plain, PS.
Qed.
