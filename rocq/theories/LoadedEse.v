(** Proofs for the positive part of C71: what is read from the .ese file and the ICAO lists, and paths. *)
From Coq Require Import ZifyBool ZifyN ZifyNat.
From Verif Require Import Base Num Float Paths Trees Sectors SpecSectors Constraints SpecJson SpecLoaded AdaptationProofs AdaptationLoads LoadedGraph LoadedSct.
From Verif Require EseParse Icao Prf Adaptation.
Import EseParse.
Local Open Scope string_scope.
Local Open Scope list_scope.

Definition levels_ok (s : ese_sector) : Prop := u32_ok (es_bottom s) /\ u32_ok (es_top s).
Definition airspace_ok (x : sector_rule) : Prop :=
  match x with XSector _ s => levels_ok s | XFirCop c | XCop c => constraint_ok c | _ => True end.
Lemma wildcard_ok p o : wildcard_u32 p = Ret o -> when u32_ok o.
Proof.
  unfold wildcard_u32. destruct (is_rule p "wildcard"); [intros [= <-]; exact I|]. destruct (is_rule p "integer"); [|discriminate].
  intros H. ret H n E. injection H as <-. apply unwrap_ret in E. exact (parse_u32_range _ _ E).
Qed.
Lemma cop_ok p c : parse_cop p = Ret c -> constraint_ok c.
Proof.
  unfold parse_cop. intros H. ret H y1 E1. destruct y1. ret H z1 F1. ret H y2 E2. destruct y2. ret H z2 F2. ret H y3 E3. destruct y3. ret H z3 F3.
  ret H y4 E4. destruct y4. ret H z4 F4. ret H y5 E5. destruct y5. ret H z5 F5. ret H y6 E6. destruct y6. ret H y7 E7. destruct y7.
  ret H y8 E8. destruct y8. ret H z8 F8. ret H y9 E9. destruct y9. ret H z9 F9. ret H y10 E10. destruct y10. injection H as <-.
  split; [exact (wildcard_ok _ _ F8)|]. split; [exact (wildcard_ok _ _ F9) | exact I].
Qed.
Lemma sector_levels p r : parse_sector p = Ret r -> levels_ok (snd r).
Proof.
  unfold parse_sector. intros H. ret H y1 E1. destruct y1. ret H y2 E2. destruct y2. ret H b EB. ret H y3 E3. destruct y3. ret H tp ET. ret H ss ES.
  injection H as <-. apply unwrap_ret in EB, ET. split; cbn; eapply parse_u32_range; eassumption.
Qed.
Lemma airspace_is_ok p x : parse_airspace p = Ret x -> airspace_ok x.
Proof.
  unfold parse_airspace. intros H. destruct (is_rule p "sectorline"). { ret H y E. destruct y. injection H as <-. exact I. }
  destruct (is_rule p "sector"). { ret H y E. destruct y. injection H as <-. exact (sector_levels _ _ E). }
  destruct (is_rule p "cop"). { ret H y E. injection H as <-. exact (cop_ok _ _ E). }
  destruct (is_rule p "fir_cop"). { ret H y E. injection H as <-. exact (cop_ok _ _ E). }
  destruct (is_rule p "display_sectorline"). { injection H as <-. exact I. }
  destruct (is_rule p "circle_sectorline"). { ret H y E. destruct y. injection H as <-. exact I. }
  destruct (is_rule p "msaw"); [|discriminate]. ret H y E. destruct y. injection H as <-. exact I.
Qed.
Definition section_is_fine (s : ese_section) : Prop :=
  match s with
  | SecPositions m => unique m
  | SecSectors x => each levels_ok (fst x) /\ Forall constraint_ok (snd x)
  | _ => True
  end.
Lemma section_fine p x : ese_section_of p = Ret x -> section_is_fine (snd x).
Proof.
  unfold ese_section_of. intros H. destruct (is_rule p "position_section").
  { ret H l E. injection H as <-. apply put_all_entries; [|apply nil_entries]. apply Forall_forall. intros e _. exact I. }
  destruct (is_rule p "airspace_section").
  { ret H l E. injection H as <-. cbn [snd section_is_fine].
    assert (F : Forall airspace_ok l) by (apply Forall_forall; intros x J; destruct (omap_inv _ _ _ E _ J) as [q [_ K]]; exact (airspace_is_ok _ _ K)).
    assert (G : forall c, entries levels_ok (co_sectors c) /\ Forall constraint_ok (co_constraints c) ->
      let c' := fold_left collect_sectors l c in entries levels_ok (co_sectors c') /\ Forall constraint_ok (co_constraints c')).
    { clear E. induction F as [|x xs Hx _ IH]; intros c Hc; cbn [fold_left]; [exact Hc|]. apply IH. destruct c as [ss cs ls bs ks], Hc as [A B].
      destruct x; cbn in *; (split; [try (apply put_entries; assumption); exact A | try (apply Forall_app; split; [exact B | constructor; [exact Hx | constructor]]); exact B]). }
    destruct (G (mkCollected [] [] [] [] [])) as [A B]. { split; [apply nil_entries | constructor]. }
    split; [|exact B]. unfold combine_sectors. cbn [fst]. intros k s J. apply in_map_iff in J. destruct J as [[k' s'] [Q J]]. injection Q as <- <-. exact (proj2 A _ _ J). }
  destruct (is_rule p "sidsstars_section"). { ret H l E. injection H as <-. exact I. }
  injection H as <-. exact I.
Qed.
Lemma ese_file_ok t e : parse_ese t = Ret e -> unique (e_positions e) /\ each levels_ok (e_sectors e) /\ Forall constraint_ok (e_constraints e).
Proof.
  unfold parse_ese. intros H. ret H kids EK. ret H l EL.
  assert (F : entries section_is_fine (put_all l [])).
  { apply put_all_entries; [|apply nil_entries]. apply Forall_forall. intros x J. destruct (omap_inv _ _ _ EL _ J) as [q [_ K]]. exact (section_fine _ _ K). }
  remember (put_all l []) as sec eqn:ESec. clear ESec.
  assert (P : unique (match get NPosition sec with Some (SecPositions p) => p | _ => [] end)).
  { destruct (get NPosition sec) as [s|] eqn:E; [|apply nil_entries]. apply (get_entries _ _ _ _ F) in E. destruct s; try apply nil_entries. exact E. }
  assert (S : let r := match get NAirspace sec with Some (SecSectors s) => s | _ => ([], []) end in each levels_ok (fst r) /\ Forall constraint_ok (snd r)).
  { assert (Z : each levels_ok (@nil (text * ese_sector)) /\ Forall constraint_ok []) by (split; [intros k s [] | constructor]).
    destruct (get NAirspace sec) as [s|] eqn:E; [|exact Z]. apply (get_entries _ _ _ _ F) in E. destruct s; try exact Z. exact E. }
  destruct (match get NAirspace sec with Some (SecSectors s) => s | _ => ([], []) end) as [ss cs]. injection H as <-. split; [exact P | exact S].
Qed.
Lemma positions_loaded l : unique l -> each position_ok (Adaptation.from_ese_positions l) -> entries position_ok (Adaptation.from_ese_positions l).
Proof.
  intros [N _] F. split; [|exact F]. unfold Adaptation.from_ese_positions. rewrite map_map. rewrite map_ext with (g := fst); [exact N|]. intros [k p]. reflexivity.
Qed.
Lemma constraints_loaded l d a : Forall constraint_ok l -> extract_constraints l = (d, a) -> entries constraint_ok d /\ entries constraint_ok a.
Proof.
  intros F H. unfold extract_constraints in H. destruct (partition _ _) as [x y] eqn:E. injection H as <- <-.
  assert (G : forall c, In c x \/ In c y -> constraint_ok c).
  { intros c J. apply (elements_in_partition _ _ E) in J. apply filter_In in J. exact (proj1 (Forall_forall _ _) F _ (proj1 J)). }
  split; apply of_list_entries, Forall_map, Forall_forall; intros c J; apply G; auto.
Qed.
Lemma volumes_loaded l cc vols secs : each levels_ok l -> sectors_ok l cc vols secs -> each (fun v => Forall point_ok (v_border v)) vols ->
  entries volume_ok vols /\ entries sector_ok secs.
Proof.
  intros L S F. destruct (so_keys _ _ _ _ S) as [N1 N2]. split.
  - split; [exact N1|]. intros k v J. pose proof (so_volumes _ _ _ _ S k) as V. rewrite (In_get k v vols N1 J) in V.
    destruct V as [s [ring [[K _] [V _]]]]. destruct (L _ _ K) as [A B]. pose proof (F _ _ J) as C. unfold volume_ok. subst v. cbn in *. auto.
  - split; [exact N2|]. intros k s J. split; [exact (proj1 (so_members _ _ _ _ S k s J)) | exact (so_sets _ _ _ _ S k s J)].
Qed.

(** ** The ICAO lists *)
Lemma aircraft_file_ok t m : Icao.parse_aircraft t = Ret m -> entries aircraft_ok m.
Proof.
  unfold Icao.parse_aircraft. intros H. ret H kids EK.
  assert (S : forall a p b, entries aircraft_ok a -> Icao.aircraft_pair a p = Ret b -> entries aircraft_ok b).
  { intros a p b A K. unfold Icao.aircraft_pair in K. destruct (is_rule p "definition"); [|injection K as <-; exact A].
    ret K y1 E1. destruct y1. ret K y2 E2. destruct y2. ret K w EW. ret K y3 E3. destruct y3. ret K ty ET. ret K y4 E4. destruct y4. ret K y5 E5. destruct y5. ret K en EE.
    ret K y6 E6. destruct y6. ret K y7 E7. destruct y7. injection K as <-. apply put_new_entries; [|exact A]. unfold aircraft_ok. cbn [Icao.ac_engines].
    destruct (parse_u8 _) as [n|] eqn:U; [|reflexivity]. apply parse_uint_range in U. unfold u8_max in U. lia. }
  refine (ofold_inv (entries aircraft_ok) _ kids S _ _ _ H). apply nil_entries.
Qed.
Lemma airlines_file_ok t m : Icao.parse_airlines t = Ret m -> unique m.
Proof.
  unfold Icao.parse_airlines. intros H. ret H kids EK. ret H l EL. injection H as <-.
  assert (G : forall acc, unique acc -> unique (fold_left (fun acc a => put_new (Icao.al_designator a) a acc) l acc)).
  { clear. induction l as [|a l IH]; intros acc A; cbn [fold_left]; [exact A|]. apply IH, put_new_entries; [exact I | exact A]. }
  apply G, nil_entries.
Qed.

(** ** Paths *)
Lemma split_slash_ok s : forall cur, ~ In 47%N cur -> forall c, In c (split_slash cur s) -> ~ In 47%N c.
Proof.
  induction s as [|x s IH]; intros cur H c J; cbn [split_slash] in J.
  - destruct J as [<-|[]]. rewrite <- in_rev. exact H.
  - destruct (x =? SLASH)%N eqn:E.
    + destruct J as [<-|J]; [rewrite <- in_rev; exact H|]. refine (IH [] _ c J). intros [].
    + refine (IH (x :: cur) _ c J). intros [->|K]; [discriminate E | exact (H K)].
Qed.
Lemma to_path_fine s : path_ok (to_path s).
Proof.
  intros c J. cbn [to_path comps] in J. apply filter_In in J. destruct J as [J N]. apply andb_prop in N. destruct N as [N1 N2]. apply negb_true_iff in N1, N2.
  split; [intros ->; rewrite eqb_refl in N1; discriminate|]. split; [intros ->; rewrite eqb_refl in N2; discriminate|].
  refine (split_slash_ok s [] _ c J). intros [].
Qed.
Lemma join_fine p q : path_ok p -> path_ok q -> path_ok (join p q).
Proof. intros P Q. unfold join. destruct (rooted q); [exact Q|]. intros c J. cbn [comps] in J. apply in_app_or in J. destruct J; auto. Qed.
Lemma parent_fine p q : path_ok p -> parent p = Some q -> path_ok q.
Proof.
  intros P H. unfold parent in H. destruct (comps p) as [|a l] eqn:E; [discriminate|]. injection H as <-. intros c J. apply P. rewrite E. cbn [comps] in J.
  change (In c (removelast (a :: l))) in J. clear - J. revert J. generalize (a :: l). intros m. induction m as [|x [|y m] IH]; cbn [removelast]; intros J; [exact J | destruct J|].
  destruct J as [<-|J]; [left; reflexivity | right; exact (IH J)].
Qed.
Lemma recent_fine cwd r n p : path_ok cwd -> path_ok (Prf.prf_path r) -> Prf.recent_path cwd r n = Ret (Some p) -> path_ok p.
Proof.
  intros C R H. unfold Prf.recent_path in H. match type of H with match ?g with _ => _ end = _ => destruct g as [x|] end; [|discriminate]. ret H q E. injection H as <-.
  unfold Prf.join_settings_path in E. match type of E with match ?g with _ => _ end = _ => destruct g as [rel|] end.
  - ret E d ED. injection E as <-. apply unwrap_ret in ED. apply join_fine; [exact (parent_fine _ _ R ED) | apply to_path_fine].
  - injection E as <-. apply join_fine; [exact C | apply to_path_fine].
Qed.
Lemma asr_fine cwd r : path_ok cwd -> path_ok (Prf.prf_path r) ->
  Forall path_ok (Settings.asr_files (fun i => match Prf.recent_path cwd r i with Ret o => o | _ => None end)).
Proof.
  intros C R. apply Forall_forall. intros p J. unfold Settings.asr_files in J. apply in_flat_map in J. destruct J as [n [_ J]].
  destruct (Prf.recent_path cwd r n) as [[q|]| |] eqn:E; try (destruct J). - subst. exact (recent_fine _ _ _ _ C R E). - destruct H.
Qed.
