(** Proofs for the positive part of C71: the whole adaptation. *)
From Coq Require Import ZifyBool ZifyN ZifyNat.
From Verif Require Import Base Num Float Paths Colours Settings Trees Adaptation SpecAdaptation AdaptationProofs AdaptationLoads SpecJson SpecLoaded.
From Verif Require Import LoadedGraph LoadedSct LoadedColours LoadedDrawn LoadedEse.
From Verif Require Prf Maps SctItems SctData Locations EseParse Icao SymbologyParse TopskyParse LoadedMaps.
Local Open Scope string_scope.
Local Open Scope list_scope.

Definition is_num (prec emax : Z) (x : spec_float) : bool := SpecFloat.valid_binary prec emax x && match x with S754_nan | S754_infinity _ => false | _ => true end.
Lemma is_num_ok prec emax x : is_num prec emax x = true -> number prec emax x.
Proof. unfold is_num, number. intros H. apply andb_prop in H. destruct H as [A B]. split; [exact A|]. destruct x; try discriminate B; exact I. Qed.
Lemma options_ok : Forall is32 vector_options.
Proof.
  apply Forall_forall. intros x J. apply is_num_ok. assert (F : forallb (is_num 24 128) vector_options = true) by (vm_compute; reflexivity).
  rewrite forallb_forall in F. exact (F x J).
Qed.
Lemma dots_ok : Forall u32_ok dots_options.
Proof. repeat constructor. Qed.
Lemma style_item_ok its f n : each (fun i => i32_ok (it_weight i)) its -> style_ok (style_of (item_of its f n)).
Proof.
  intros F. unfold style_of. destruct (item_of its f n) as [i|] eqn:E; [|unfold style_ok, i32_ok; cbn; lia]. apply get_In in E. exact (F _ _ E).
Qed.
Lemma history_ok ts : u32_ok (snd (history_dots ts)).
Proof.
  unfold history_dots. destruct ts as [m|]; [|reflexivity]. cbn [snd]. unfold parse_with_default, unwrap_or, and_then.
  destruct (get _ m) as [x|]; [|reflexivity]. destruct (parse_u32 x) as [n|] eqn:E; [|reflexivity]. apply parse_u32_range in E. destruct (negb (n =? 0)%N); [exact E | reflexivity].
Qed.
Lemma settings_loaded v r y t q : path_ok (cwd v) -> path_ok (Prf.prf_path r) -> LoadedMaps.symbology_ok y ->
  settings_floats (the_settings v r y t q) -> settings_ok (the_settings v r y t q).
Proof.
  intros C R [[_ Y] _] [F1 [F2 F3]]. unfold settings_ok.
  assert (W : each (fun i => i32_ok (it_weight i)) (items_of y)).
  { intros k i J. unfold items_of in J. apply in_map_iff in J. destruct J as [[k' i'] [Q J]]. injection Q as <- <-. exact (proj2 (Y _ _ J)). }
  split; [exact F1|]. split; [apply is_num_ok; vm_compute; reflexivity|]. split; [split; apply is_num_ok; vm_compute; reflexivity|].
  split; [exact I|]. split; [repeat (constructor; [apply style_item_ok, W|]); constructor|]. split; [exact F2|]. split; [exact F3|]. split; [exact options_ok|].
  split; [apply history_ok|]. split; [exact dots_ok|].
  split; [cbn [se_codes the_settings]; destruct q; [apply NoDup_of_list | constructor]|]. split; [apply asr_fine; assumption|].
  split; [|apply nil_entries]. repeat (constructor; [apply is_num_ok; vm_compute; reflexivity|]). constructor.
Qed.
Lemma order_each {K A} (v : env) s (P : A -> Prop) (m : list (K * A)) : orders_ok v -> each P m -> each P (order v s _ m).
Proof. intros O F k a J. apply (Permutation_in _ (O s _ m)) in J. exact (F k a J). Qed.

Lemma loaded_ok v r a : from_prf v r = Ret a -> orders_ok v -> path_ok (cwd v) -> path_ok (Prf.prf_path r) -> floats_ok a ->
  fits (al_airways (ad_locations a)) -> expressible a.
Proof.
  intros H O C R [FL [FP [FV [FM [FS [FD [FT FI]]]]]]] FG. apply from_prf_ret in H. destruct H as [F [t [q M]]].
  destruct (made_sectors _ _ _ _ _ _ O M) as [_ SO]. destruct M as [MF MT _ _ MP MA MPo _ MC MM MS MCo MSt MSe MAc MAl MI _].
  destruct MF as [[p1 [b1 [_ [_ PS]]]] [p2 [b2 [_ [_ PE]]]] [p3 [b3 [_ [_ PW]]]] [p4 [b4 [_ [_ PY]]]] _ _ [p7 [b7 [_ [_ PA]]]] [p8 [b8 [_ [_ PL]]]]].
  apply sct_file_ok in PS. apply ese_file_ok in PE. apply airway_txt_in in PW. apply LoadedMaps.symbology_file_ok in PY. apply aircraft_file_ok in PA. apply airlines_file_ok in PL.
  destruct PS as [PS1 PS2], PE as [PE1 [PE2 PE3]].
  assert (T : when LoadedMaps.topsky_ok t).
  { destruct t as [x|]; [|exact I]. destruct MT as [d [_ E]]. unfold topsky_files in E. exact (LoadedMaps.topsky_is_ok _ _ _ _ _ E). }
  clear MT.
  assert (CO : forall b, colours_ok (colours_of v (f_symbology F) (f_sct F) t b)).
  { intros b. unfold colours_of. apply colours_loaded.
    - intros k c J. unfold item_colours in J. apply in_map_iff in J. destruct J as [[k' i] [Q J]]. injection Q as <- <-. exact (proj1 (proj2 (proj1 PY) _ _ J)).
    - apply order_each; [exact O | exact (proj2 PS1)].
    - intros l E. destruct t as [x|]; [|discriminate]. injection E as <-. apply order_each; [exact O|]. intros k c J. apply in_map_iff in J.
      destruct J as [[k' d] [Q J]]. injection Q as <- <-. exact (proj2 (proj2 (proj2 T)) _ _ J). }
  assert (LK : forall n x, lookup_of v F t n = Some x -> colour_ok x) by (intros n x E; exact (colours_get_ok _ _ _ _ (CO _) E)).
  unfold expressible.
  split. { destruct (ad_locations a) as [L g]. cbn [al_points al_airways] in *. subst g. apply locations_loaded; try assumption.
    exact (locations_tables _ (loc_input_of v (f_sct F) (f_ese F) (f_airports F) (f_navdata F)) L PS2 MP). }
  split. { rewrite MPo in *. apply positions_loaded; assumption. }
  destruct (volumes_loaded _ _ _ _ PE2 SO FV) as [V1 V2]. split; [exact V1|]. split; [exact V2|].
  destruct (constraints_loaded _ _ _ PE3 MC) as [C1 C2]. split; [exact C1|]. split; [exact C2|].
  split. { apply maps_loaded; [|exact FM]. unfold maps_of in MM. destruct t as [x|]; [|injection MM as <-; apply nil_entries]. ret MM u EU. apply unwrap_ret in MM.
    refine (maps_look _ _ _ _ _ (proj1 T) MM). exact LK. }
  split. { rewrite MS in *. unfold symbols_of in *. apply symbols_loaded; [|exact (proj2 PY) | exact FS]. destruct t as [x|]; [|exact I]. destruct T as [_ [[N T] _]].
    cbn [option_map when]. apply (keys_entries snd); assumption. }
  split. { rewrite MCo. apply CO. }
  split. { split; [|exact FD]. rewrite MSt. apply NoDup_of_list. }
  split. { rewrite MSe in *. apply settings_loaded; assumption. }
  split. { rewrite MAc. exact PA. }
  split. { rewrite MAl. exact PL. }
  refine (items_loaded _ _ _ _ _ _ MI FI); [exact LK | apply sid_ok, CO].
Qed.

(** What JSON can express has numbers for floats. *)
Lemma each_of_entries {K A} (P Q : A -> Prop) (m : list (K * A)) : (forall a, P a -> Q a) -> entries P m -> each Q m.
Proof. intros F [_ H] k a J. apply F, (H k a J). Qed.
Lemma coloured_floats m : multi coloured_ok m -> each_of (fun c => lines_ok (SctItems.cl_lines c)) m.
Proof. apply each_of_entries. intros l. apply Forall_impl. intros c [_ H]. exact H. Qed.
Lemma rule_numbers x : rule_ok x -> rule_floats x.
Proof. destruct x; cbn; tauto. Qed.
Lemma expressible_floats a : expressible a -> floats_ok a.
Proof.
  intros [L [P [V [_ [_ [_ [M [S [_ [D [T [_ [_ [I1 [I2 [I3 [I4 [I5 [I6 [I7 [I8 [I9 I10]]]]]]]]]]]]]]]]]]]]]]. unfold floats_ok.
  split. { destruct L as [L1 [L2 [L3 [L4 [[L5 _] [L6 L7]]]]]]. unfold locations_floats.
    split; [exact (proj2 L1)|]. split; [exact (proj2 L2)|]. split; [exact (proj2 L3)|].
    split. { apply (each_of_entries airport_ok); [|exact L4]. intros x [A B]. split; [exact A|]. revert B. apply Forall_impl. intros y [_ [_ H]]. exact H. }
    split. { revert L5. apply Forall_impl. intros x [H _]. exact H. }
    split; (apply (each_of_entries (multi procedure_ok)); [intros m H; exact (proj2 H) | assumption]). }
  split; [exact (proj2 P)|]. split. { apply (each_of_entries volume_ok); [|exact V]. intros x [_ [_ H]]. exact H. }
  split. { apply (each_of_entries folder_ok); [|exact M]. intros f. apply each_of_entries. intros m. apply Forall_impl.
    intros g [_ [G1 [G2 [G3 [G4 [G5 [G6 [G7 _]]]]]]]]. unfold group_floats. tauto. }
  split. { destruct S as [S1 S2]. split; [revert S1; apply Forall_impl; intros s; apply Forall_impl, rule_numbers|].
    revert S2. apply each_of_entries. intros s. apply Forall_impl, rule_numbers. }
  split; [exact (proj2 D)|]. split. { destruct T as [T1 [_ [_ [_ [_ [T6 [T7 _]]]]]]]. unfold settings_floats. tauto. }
  unfold items_floats. split; [exact (coloured_floats _ I1)|]. split; [exact (coloured_floats _ I2)|]. split; [exact (proj2 I3)|]. split; [exact (proj2 I4)|].
  split; [exact (coloured_floats _ I5)|]. split; [exact (coloured_floats _ I6)|]. split; [exact (coloured_floats _ I7)|]. split; [exact (coloured_floats _ I8)|].
  split; [exact (proj2 I9) | exact (proj2 I10)].
Qed.
