(** Proofs for the positive part of C71: ranges and keys of what is made of the .sct file. *)
From Coq Require Import ZifyBool ZifyN ZifyNat.
From Verif Require Import Base Num Float Colours Trees SpecJson SpecLoaded AdaptationProofs AdaptationLoads LoadedGraph.
From Verif Require Import Adaptation.
From Verif Require Locations SctData SctParse SctItems Maps ColoursProofs.
Local Open Scope string_scope.
Local Open Scope list_scope.

Lemma from_rgb_ok r g b : (r < 256)%N -> (g < 256)%N -> (b < 256)%N -> colour_ok (from_rgb r g b).
Proof. intros. split; [|reflexivity]. repeat split; cbn; lia. Qed.
Lemma from_euroscope_ok n c : Colours.from_euroscope n = Some c -> colour_ok c.
Proof.
  intros H. pose proof (ColoursProofs.from_euroscope_spec n) as S. rewrite H in S. exact (conj (proj1 (proj2 S)) (proj1 (proj2 (proj2 S)))).
Qed.

(** ** The file *)
Definition heading_ok (x : Locations.runway) : Prop := u32_ok (fst (Locations.r_hdg x)) /\ u32_ok (snd (Locations.r_hdg x)).
Definition section_ok (s : SctParse.section) : Prop := match s with SctParse.SecRunways l => Forall heading_ok l | _ => True end.
Notation table := (entries colour_ok : list (text * colour) -> Prop).
Lemma store_ok c p c' : table c -> SctParse.store_colour c p = Ret c' -> table c'.
Proof.
  intros T H. unfold SctParse.store_colour, SctParse.parse_colour_definition in H. ret H d ED. injection H as <-. ret ED x1 E1. destruct x1. ret ED x2 E2. destruct x2.
  ret ED n EN. injection ED as <-. destruct (Colours.from_euroscope n) as [k|] eqn:EK; [|exact T]. apply put_entries; [exact (from_euroscope_ok _ _ EK) | exact T].
Qed.
Lemma info_ok ts : forall info i y c r, table c -> SctParse.info_lines ts info i y c = Ret r -> table (snd r).
Proof.
  induction ts as [|p ts IH]; intros info i y c r T H; cbn [SctParse.info_lines] in H; [injection H as <-; exact T|].
  destruct (is_rule p "colour_definition").
  - ret H c1 E1. exact (IH _ _ _ _ _ (store_ok _ _ _ T E1) H).
  - ret H x E1. destruct x as [info' y']. exact (IH _ _ _ _ _ T H).
Qed.
Lemma list_ok {A} (P : A -> Prop) f ts : (forall p x, f p = Ret (Some x) -> P x) -> forall c r, table c -> SctParse.entries f ts c = Ret r -> Forall P (fst r) /\ table (snd r).
Proof.
  intros Hf. induction ts as [|p ts IH]; intros c r T H; cbn [SctParse.entries] in H; [injection H as <-; split; [constructor | exact T]|].
  destruct (is_rule p "colour_definition").
  - ret H c1 E1. exact (IH _ _ (store_ok _ _ _ T E1) H).
  - ret H x E1. ret H y E2. destruct y as [l c1]. injection H as <-. destruct (IH _ _ T E2) as [F T1]. split; [|exact T1].
    destruct x as [x|]; [constructor; [exact (Hf _ _ E1) | exact F] | exact F].
Qed.
Lemma runway_heading p x : SctParse.some SctParse.parse_runway p = Ret (Some x) -> heading_ok x.
Proof.
  unfold SctParse.some, SctParse.parse_runway. intros H. ret H y E. injection H as ->.
  ret E x1 E1. destruct x1. ret E x2 E2. destruct x2. ret E x3 E3. destruct x3. ret E h1 H1. ret E x4 E4. destruct x4. ret E h2 H2.
  ret E x5 E5. destruct x5. ret E p1 L1. ret E x6 E6. destruct x6. ret E p2 L2. ret E x7 E7. destruct x7. injection E as <-.
  apply unwrap_ret in H1, H2. split; [exact (parse_u32_range _ _ H1) | exact (parse_u32_range _ _ H2)].
Qed.
Lemma listed_ok {A} (P : A -> Prop) f sec n p c r : (forall p x, f p = Ret (Some x) -> P x) -> (forall l, Forall P l -> section_ok (sec l)) -> table c ->
  SctParse.listed f sec n p c = Ret r -> section_ok (snd (fst r)) /\ table (snd r).
Proof.
  intros Hf Hs T H. unfold SctParse.listed in H. ret H x E. destruct x as [l c1]. injection H as <-. destruct (list_ok P f _ Hf _ _ T E) as [F T1].
  split; [apply Hs, F | exact T1].
Qed.
Lemma section_is_ok p c r : table c -> SctParse.parse_section p c = Ret r -> section_ok (snd (fst r)) /\ table (snd r).
Proof.
  intros T H. unfold SctParse.parse_section in H.
  destruct (is_rule p "info_section"). { ret H x E. destruct x as [i c1]. injection H as <-. split; [exact I | exact (info_ok _ _ _ _ _ _ T E)]. }
  repeat (match type of H with (if ?b then _ else _) = _ => destruct b end;
    [first [ revert H; apply (listed_ok heading_ok); [exact runway_heading | intros l F; exact F | exact T]
           | revert H; apply (listed_ok (fun _ => True)); [intros; exact I | intros; exact I | exact T] ] |]).
  injection H as <-. split; [exact I | exact T].
Qed.
Lemma sct_file_ok t s : SctParse.parse_sct t = Ret s -> table (SctData.sc_colours s) /\ Forall heading_ok (SctData.sc_runways s).
Proof.
  unfold SctParse.parse_sct. intros H. ret H kids EK. ret H st ES. destruct st as [secs cols]. injection H as <-. cbn [SctData.sc_colours SctData.sc_runways].
  assert (X : (forall k x, In (k, x) secs -> section_ok x) /\ table cols).
  { revert ES. apply (ofold_inv (fun st => (forall k x, In (k, x) (fst st) -> section_ok x) /\ table (snd st)) SctParse.sct_step).
    - intros [s1 c1] p [s2 c2] [A B] E. cbn [fst snd] in *. unfold SctParse.sct_step in E. destruct (is_rule p "colour_definition").
      + ret E c3 E3. injection E as <- <-. split; [exact A | exact (store_ok _ _ _ B E3)].
      + ret E r E3. destruct r as [[n x] c3]. injection E as <- <-. destruct (section_is_ok _ _ _ B E3) as [U V]. split; [|exact V].
        exact (put_forall section_ok n x s1 U A).
    - split; [intros k x [] | apply nil_entries]. }
  destruct X as [A B]. split; [exact B|]. unfold SctParse.taken. destruct (get SctParse.SnRunways secs) as [x|] eqn:G; [|constructor].
  apply get_In in G. specialize (A _ _ G). destruct x; try constructor. exact A.
Qed.

(** ** Locations *)
Definition headings_ok (x : Locations.airport) : Prop := Forall heading_ok (Locations.ap_runways x).
Lemma airports_ok aps rwys nd ic : Forall heading_ok rwys -> entries headings_ok (Locations.airport_table aps rwys nd ic).
Proof.
  intros R. unfold Locations.airport_table. apply fold_left_inv.
  - intros t [d i] T. unfold Locations.add_icao. destruct (get d t) as [a|] eqn:G; [|exact T]. apply put_entries; [exact (get_entries _ _ _ _ T G) | exact T].
  - apply fold_left_inv.
    + intros t [d n] T. unfold Locations.add_navdata. destruct (get d t) as [a|] eqn:G; (apply put_entries; [|exact T]); [exact (get_entries _ _ _ _ T G) | constructor].
    + apply of_list_entries, Forall_map, Forall_forall. intros a _. cbn [snd]. unfold headings_ok. cbn [Locations.ap_runways].
      apply Forall_forall. intros r I. apply filter_In in I. rewrite Forall_forall in R. apply R, I.
Qed.
Definition unique {K A} (m : list (K * A)) : Prop := entries (fun _ => True) m.
Definition unique2 {A} (m : list (text * list (text * A))) : Prop := entries unique m.
Lemma mpush_unique {K V} `{EqDec K} (l : list (K * V)) : unique (mpush_all l []).
Proof. split; [apply NoDup_mpush_all; constructor | intros; exact I]. Qed.
Lemma add_proc_ok p m : unique2 m -> unique2 (Locations.add_proc p m).
Proof.
  intros U. unfold Locations.add_proc. destruct (get _ m) as [names|] eqn:G; (apply put_entries; [|exact U]).
  - pose proof (get_entries _ _ _ _ U G) as [N _]. split; [apply NoDup_put, N | intros; exact I].
  - split; [apply NoDup_put; constructor | intros; exact I].
Qed.
Definition tables_ok (L : Locations.locations) : Prop :=
  unique (Locations.l_fixes L) /\ unique (Locations.l_vors L) /\ unique (Locations.l_ndbs L) /\ entries headings_ok (Locations.l_airports L) /\
  unique2 (Locations.l_sids L) /\ unique2 (Locations.l_stars L).
Lemma locations_tables dst i L : Forall heading_ok (Locations.i_runways i) -> Locations.from_euroscope dst i = Ret L -> tables_ok L.
Proof.
  intros R. unfold Locations.from_euroscope.
  assert (forall ps st, (forall L, st = Ret L -> tables_ok L) -> fold_left (Locations.add_sid_star dst) ps st = Ret L -> tables_ok L) as X.
  { induction ps as [|x ps IH]; intros st H E; cbn [fold_left] in E; [exact (H _ E)|]. revert E. apply IH. intros L1 E1.
    destruct st as [L0| |]; cbn [Locations.add_sid_star] in E1; try discriminate. specialize (H L0 eq_refl). destruct H as [A [B [C [D [E F]]]]].
    destruct x as [p|p]; destruct (Locations.conv_proc dst L0 p) as [q| |]; try discriminate; injection E1 as <-; unfold tables_ok; cbn;
      repeat (split; [assumption || (apply add_proc_ok; assumption)|]); (assumption || (apply add_proc_ok; assumption)). }
  apply X. intros L0 [=<-]. unfold tables_ok, Locations.base_locations. cbn [Locations.l_fixes Locations.l_vors Locations.l_ndbs Locations.l_airports Locations.l_sids Locations.l_stars].
  repeat (split; [apply mpush_unique|]). split; [apply airports_ok, R|]. split; apply nil_entries.
Qed.
Lemma entries_each {K A} (P Q R : A -> Prop) (m : list (K * A)) : (forall a, P a -> Q a -> R a) -> entries P m -> each Q m -> entries R m.
Proof. intros H [N F] G. split; [exact N|]. intros k a I. apply H; [exact (F k a I) | exact (G k a I)]. Qed.
Lemma unique_each {K A} (P : A -> Prop) (m : list (K * A)) : unique m -> each P m -> entries P m.
Proof. apply entries_each. auto. Qed.
Lemma Forall_and {A} (P Q R : A -> Prop) l : (forall a, P a -> Q a -> R a) -> Forall P l -> Forall Q l -> Forall R l.
Proof. intros H F G. rewrite Forall_forall in *. auto. Qed.
Lemma locations_loaded L g : tables_ok L -> graph_in g -> fits g -> locations_floats (mkAllLocations L g) -> locations_ok (mkAllLocations L g).
Proof.
  intros [A [B [C [D [E F]]]]] G FI [A' [B' [C' [D' [G' [E' F']]]]]]. unfold locations_ok. cbn [al_points al_airways] in *.
  split; [exact (unique_each _ _ A A')|]. split; [exact (unique_each _ _ B B')|]. split; [exact (unique_each _ _ C C')|].
  split; [|split; [exact (graph_loaded g G FI G')|]].
  - revert D D'. apply entries_each. intros a H [P1 P2]. split; [exact P1|]. revert H P2. apply Forall_and. intros r [H1 H2] [Q1 Q2]. exact (conj H1 (conj H2 (conj Q1 Q2))).
  - split; [revert E E' | revert F F']; apply entries_each; intros m; apply unique_each.
Qed.
