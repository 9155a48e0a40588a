(** The parts of an adaptation are read from their members, and overlays. *)
From Coq Require Import ZifyBool ZifyN ZifyNat.
From Verif Require Import Base Num Float Trees Paths Colours Settings Adaptation AdaptationMore Json SpecJson JsonAdaptation JsonProofs JsonRoundTrip JsonAccepts JsonWritten.
From Verif Require Constraints Locations Airways Sectors Maps SctData SctItems Icao.
Local Open Scope string_scope.
Local Open Scope list_scope.

Lemma eqb_refl_text (k : text) : eqb k k = true. Proof. apply (eqb_true k k). reflexivity. Qed.
Lemma once_values k v o : once k v o <-> values (s2t k) o = [v].
Proof. symmetry. apply values_one. Qed.

(** ** merged *)
Lemma values_merged (k : text) o p : values k (merged o p) = if existsb (eqb k) (map fst p) then values k p else values k o.
Proof.
  unfold merged. rewrite values_app. destruct (existsb (eqb k) (map fst p)) eqn:E.
  - replace (values k (filter _ o)) with (@nil json); [reflexivity|]. symmetry. apply values_nil. intros I. apply in_map_iff in I.
    destruct I as [[k' v] [<- I]]. apply filter_In in I. destruct I as [_ I]. cbn in *. rewrite E in I. discriminate.
  - assert (N : values k p = []) by (apply values_nil; intros I; apply existsb_eqb in I; congruence). rewrite N, app_nil_r.
    unfold values. f_equal. induction o as [|[k' v] o IH]; [reflexivity|]. cbn [filter fst]. destruct (eqb k' k) eqn:X.
    + apply (eqb_true k' k) in X. subst. rewrite E. cbn [negb filter fst]. rewrite eqb_refl_text. f_equal. exact IH.
    + destruct (negb (existsb (eqb k') (map fst p))); cbn [filter fst]; [rewrite X|]; exact IH.
Qed.
Lemma values_merged_all (k : string) o ps :
  (forall v, decides k v ps -> once k v (merged_all o ps)) /\
  ((forall p, In p ps -> ~ names_part k p) -> values (s2t k) (merged_all o ps) = values (s2t k) o).
Proof.
  split.
  - intros v [l [p [l' [-> [V N]]]]]. unfold merged_all. rewrite fold_left_app. cbn [fold_left]. apply once_values. set (o1 := fold_left merged l o).
    assert (G : forall l' o', (forall q, In q l' -> ~ names_part k q) -> values (s2t k) (fold_left merged l' o') = values (s2t k) o').
    { clear. induction l' as [|q l' IH]; intros o' N; [reflexivity|]. cbn [fold_left]. rewrite IH by (intros r I; apply N; right; exact I). rewrite values_merged.
      destruct (existsb (eqb (s2t k)) (map fst q)) eqn:E; [|reflexivity]. destruct (N q (or_introl eq_refl)). apply existsb_eqb, E. }
    rewrite G by exact N. rewrite values_merged. apply once_values in V. destruct (existsb (eqb (s2t k)) (map fst p)) eqn:E; [exact V|].
    exfalso. assert (Z : values (s2t k) p = []) by (apply values_nil; intros I; apply existsb_eqb in I; congruence). congruence.
  - unfold merged_all. revert o. induction ps as [|q ps IH]; intros o N; [reflexivity|]. cbn [fold_left]. rewrite IH by (intros r I; apply N; right; exact I). rewrite values_merged.
    destruct (existsb (eqb (s2t k)) (map fst q)) eqn:E; [|reflexivity]. destruct (N q (or_introl eq_refl)). apply existsb_eqb, E.
Qed.
Lemma decided (k : string) ps : (forall p, In p ps -> NoDup (map fst p)) -> (exists v, decides k v ps) \/ forall p, In p ps -> ~ names_part k p.
Proof.
  induction ps as [|p ps IH]; intros ND; [right; intros ? []|].
  destruct IH as [[v [l [q [l' [-> D]]]]]|N]; [intros q I; apply ND; right; exact I | left; exists v, (p :: l), q, l'; auto |].
  destruct (existsb (eqb (s2t k)) (map fst p)) eqn:E.
  - left. apply existsb_eqb in E. apply in_map_iff in E. destruct E as [[k' v] [E I]]. cbn in E. subst. exists v, [], p, ps.
    split; [reflexivity|]. split; [|exact N]. apply once_values. apply values_nodup; [apply ND; left; reflexivity | exact I].
  - right. intros q [<-|I]; [|apply N, I]. intros X. apply existsb_eqb in X. congruence.
Qed.

Section Parts.
Context (nm : numerals).

(** ** Every part is read from its member *)
Lemma read_field {A B} k (c : codec A) (f : fcodec B) o r : fobj (field k c f) o = Some r ->
  (exists v, values (s2t k) o = [v] /\ dec c v = Some (fst r)) /\ fobj f o = Some (snd r).
Proof.
  cbn. destruct (values (s2t k) o) as [|v [|]]; cbn; try discriminate. destruct (dec c v) as [x|] eqn:E; [|discriminate]. cbn.
  destruct (fobj f o) as [y|]; [|discriminate]. cbn. intros H. injection H as <-. cbn. eauto.
Qed.
Lemma parts_read o a o' a' (same : string -> Prop) : of_value nm (JObj o) = Some a -> of_value nm (JObj o') = Some a' ->
  (forall k, same k -> values (s2t k) o' = values (s2t k) o) -> agree same a a'.
Proof.
  unfold of_value, c_adaptation. cbn [dec iso c_struct].
  match goal with |- context [fobj ?f o] => destruct (fobj f o) as [r|] eqn:R; [|discriminate]; destruct (fobj f o') as [r'|] eqn:R'; [|discriminate] end.
  cbn [option_map]. intros E E' S. injection E as <-. injection E' as <-.
  repeat (let V := fresh "V" in let V' := fresh "V" in apply read_field in R; destruct R as [V R]; apply read_field in R'; destruct R' as [V' R']).
  clear R R'. repeat match goal with p : (_ * _)%type |- _ => destruct p | u : unit |- _ => destruct u end. cbn [fst snd] in *.
  constructor; intros N; cbn; specialize (S _ N);
  match type of S with values ?k _ = _ =>
    repeat match goal with V : exists v, values k _ = [v] /\ _ |- _ => let j := fresh "j" in let E := fresh "E" in let D := fresh "D" in destruct V as [j [E D]] end
  end; congruence.
Qed.

(** ** What is restated is read, and its members are reordered *)
Definition local {A} (f : fcodec A) (P : A -> Prop) : Prop := forall a o' a', P a -> fobj f o' = Some a' ->
  forall k v v', In (k, v) (fenc f a) -> values k o' = [v'] -> alike (same_number nm) v v' -> exists w, In (k, w) (fenc f a') /\ alike eq v w.
Lemma local_nil : local fnil (fun _ => True).
Proof. intros a o' a' _ _ k v v' []. Qed.
Lemma local_field {A B} k (c : codec A) (f : fcodec B) P Q : good nm c P -> local f Q -> local (field k c f) (fun p => P (fst p) /\ Q (snd p)).
Proof.
  intros [_ S] L [a b] o' [a' b'] [HP HQ] R k0 v v' I V K. apply read_field in R. destruct R as [[w [V0 D]] R]. cbn [fst snd] in *.
  destruct I as [I|I].
  - cbn in I. injection I as <- <-. rewrite V0 in V. injection V as ->. destruct (S a v' HP K) as [a2 [D2 [_ L2]]]. rewrite D2 in D. injection D as ->.
    eexists. split; [left; reflexivity | exact L2].
  - destruct (L b o' b' HQ R k0 v v' I V K) as [w' [I' L']]. exists w'. split; [right; exact I' | exact L'].
Qed.
Hint Resolve good_text good_locations good_position good_volume good_sector good_constraint good_folder good_symbols good_colours good_dash good_settings
  good_aircraft good_airline good_sct_items good_map good_list nn_list good_option : parts.
Definition the_values (x : adaptation) :=
  (ad_name x, (ad_locations x, (ad_positions x, (ad_volumes x, (ad_sectors x, (ad_departure x, (ad_destination x, (ad_maps x, (ad_symbols x,
    (ad_colours x, (ad_line_styles x, (ad_settings x, (ad_aircraft x, (ad_airlines x, (ad_sct_items x, tt))))))))))))))).
Definition the_fields := field "name" c_text (field "locations" (c_locations nm) (field "positions" (c_map (c_position nm)) (field "volumes" (c_map (c_volume nm))
  (field "sectors" (c_map c_sector) (field "departure_constraints" (c_map (c_constraint nm)) (field "destination_constraints" (c_map (c_constraint nm))
  (field "maps" (c_map (c_folder nm)) (field "symbols" (c_symbols nm) (field "colours" c_colours
  (field "line_styles" (c_map (c_option (c_list (c_dash nm)))) (field "settings" (c_settings nm) (field "aircraft" (c_map (c_aircraft nm))
  (field "airlines" (c_map c_airline) (field "sct_items" (c_sct_items nm) fnil)))))))))))))).
Lemma fields_written a : fenc the_fields (the_values a) = map (fun '(k, j) => (s2t k, j)) (members nm a).
Proof. exact (f_equal (fun j => match j with JObj o => o | _ => [] end) (wr_adaptation nm a)). Qed.
Lemma fields_read o a : of_value nm (JObj o) = Some a -> fobj the_fields o = Some (the_values a).
Proof.
  unfold of_value, c_adaptation. cbn [dec iso c_struct]. fold the_fields. destruct (fobj the_fields o) as [r|]; [|discriminate]. cbn [option_map].
  repeat match goal with p : (_ * _)%type |- _ => destruct p | u : unit |- _ => destruct u end. intros E. injection E as <-. reflexivity.
Qed.
Lemma member_of k j a : In (k, j) (members nm a) <-> In (s2t k, j) (fenc the_fields (the_values a)).
Proof.
  rewrite fields_written, in_map_iff. split.
  - intros I. exists (k, j). auto.
  - intros [[k' j'] [E I]]. injection E as E ->. apply ColoursProofs.s2t_inj in E. subst. exact I.
Qed.
Lemma local_adaptation (FN : faithful nm) a o' a' : expressible a -> of_value nm (JObj o') = Some a' ->
  forall k j j', In (k, j) (members nm a) -> once k j' o' -> restated nm j j' -> exists w, In (k, w) (members nm a') /\ reordered j w.
Proof.
  intros X R k j j' I V K. apply fields_read in R. apply member_of in I. apply once_values in V.
  assert (L : exists P, local the_fields P /\ P (the_values a)).
  { eexists. split.
    - unfold the_fields. repeat (apply local_field; [solve [eauto 6 with parts]|]). apply local_nil.
    - unfold expressible in X. unfold the_values. cbn. tauto. }
  destruct L as [P [L LP]]. destruct (L _ _ _ LP R _ _ _ I V K) as [w [W A]]. exists w. split; [apply member_of, W | exact A].
Qed.

(** ** Accepted overlays *)
Lemma written_once a k j : In (k, j) (members nm a) -> values (s2t k) (map (fun '(k, j) => (s2t k, j)) (members nm a)) = [j].
Proof.
  intros I. apply values_nodup.
  - rewrite map_map. apply nodup_ok. vm_compute. reflexivity.
  - apply in_map_iff. exists (k, j). auto.
Qed.
Lemma part_members a k : In k (map fst parts) <-> exists j, In (k, j) (members nm a).
Proof.
  change (map fst parts) with (map fst (members nm a)). rewrite in_map_iff. split; [intros [[k' j] [<- I]]; eauto | intros [j I]; exists (k, j); auto].
Qed.
Lemma conforms_parts o : conforms nm s_adaptation (JObj o) <-> forall k s, In (k, s) parts -> exists v, once k v o /\ conforms nm s v.
Proof.
  split.
  - intros C. inversion C as [| | | | | | | | | | | | |fs o' H| | | |]; subst. intros k s I.
    destruct (H k Required s (in_map (fun '(k, s) => req k s) parts (k, s) I)) as [[N _]|V]; [contradiction | exact V].
  - intros H. constructor. intros k p s I. apply in_map_iff in I. destruct I as [[k' s'] [E I]]. unfold req in E. injection E as <- <- <-. right. apply H, I.
Qed.
Lemma overlay_accepted (FN : faithful nm) a ps : expressible a -> (forall p, In p ps -> NoDup (map fst p)) ->
  (exists a', of_value nm (JObj (merged_all (map (fun '(k, j) => (s2t k, j)) (members nm a)) ps)) = Some a') <->
  forall k s v, In (k, s) parts -> decides k v ps -> conforms nm s v.
Proof.
  intros X ND. set (o := map _ _). pose proof (accepts_adaptation nm (JObj (merged_all o ps))) as A. unfold of_value. rewrite A, conforms_parts. split.
  - intros H k s v I D. destruct (H k s I) as [v' [V C]]. apply (values_merged_all k o ps) in D. apply once_values in V, D. rewrite V in D. injection D as ->. exact C.
  - intros H k s I. destruct (decided k ps ND) as [[v D]|N].
    + exists v. split; [apply (values_merged_all k o ps), D | apply (H k s v I D)].
    + assert (C : conforms nm s_adaptation (JObj o)).
      { apply (accepts_adaptation nm). exists (without_index a). destruct (good_adaptation nm FN) as [G _]. specialize (G (without_index a) (conj X eq_refl)).
        rewrite (wr_adaptation nm) in G. exact G. }
      rewrite conforms_parts in C. destruct (C k s I) as [v [V Cv]]. exists v. split; [|exact Cv]. apply once_values. apply once_values in V.
      rewrite (proj2 (values_merged_all k o ps) N). exact V.
Qed.
Lemma overlay_kept (FN : faithful nm) a ps a' : expressible a ->
  of_value nm (JObj (merged_all (map (fun '(k, j) => (s2t k, j)) (members nm a)) ps)) = Some a' ->
  agree (fun k => forall p, In p ps -> ~ names_part k p) a a'.
Proof.
  intros X R. assert (G : of_value nm (JObj (map (fun '(k, j) => (s2t k, j)) (members nm a))) = Some (without_index a)).
  { destruct (good_adaptation nm FN) as [G _]. specialize (G (without_index a) (conj X eq_refl)). rewrite (wr_adaptation nm) in G. exact G. }
  assert (K : agree (fun k => forall p, In p ps -> ~ names_part k p) (without_index a) a').
  { apply (parts_read _ _ _ _ _ G R). intros k N. apply values_merged_all, N. }
  destruct K. constructor; assumption.
Qed.
Lemma overlay_taken o ps a' ob b : of_value nm (JObj ob) = Some b -> of_value nm (JObj (merged_all o ps)) = Some a' ->
  agree (fun k => exists v, decides k v ps /\ once k v ob) b a'.
Proof.
  intros G R. apply (parts_read _ _ _ _ _ G R). intros k [v [D V]]. apply (values_merged_all k o ps) in D. apply once_values in D, V. congruence.
Qed.

(** ** Restated values conform *)
Fixpoint size (j : json) : nat :=
  match j with
  | JArr l => S (list_sum (map size l))
  | JObj l => S (list_sum (map (fun e : text * json => let (_, j) := e in size j) l))
  | _ => 1
  end.
Lemma in_sum {A} (f : A -> nat) x l : In x l -> f x <= list_sum (map f l).
Proof. induction l as [|y l IH]; [intros []|]. cbn. intros [->|I]; [lia | specialize (IH I); unfold list_sum in *; lia]. Qed.
Lemma once_alike (k : string) v o p o' : Permutation o p -> Forall2 (fun e e' => fst e = fst e' /\ alike (same_number nm) (snd e) (snd e')) p o' ->
  once k v o -> exists v', once k v' o' /\ alike (same_number nm) v v'.
Proof.
  intros PE F V. assert (Vp : exists l l', p = l ++ (s2t k, v) :: l' /\ ~ In (s2t k) (map fst (l ++ l'))).
  { destruct V as [m [m' [-> N]]]. assert (I : In (s2t k, v) p) by (apply (Permutation_in _ PE), in_or_app; right; left; reflexivity).
    apply in_split in I. destruct I as [l [l' ->]]. exists l, l'. split; [reflexivity|]. apply Permutation_app_inv in PE.
    intros I. apply N. apply (Permutation_in _ (Permutation_map fst (Permutation_sym PE)) I). }
  destruct Vp as [l [l' [-> N]]]. apply Forall2_app_inv_l in F. destruct F as [m [m2 [F1 [F2 ->]]]]. inversion F2 as [|? [k' v'] ? m' [E A] F3]; subst. cbn in E, A. subst k'.
  exists v'. split; [|exact A]. exists m, m'. split; [reflexivity|]. rewrite map_app, in_app_iff in *.
  assert (G : forall a b, Forall2 (fun e e' : text * json => fst e = fst e' /\ alike (same_number nm) (snd e) (snd e')) a b -> map fst a = map fst b).
  { clear. induction 1 as [|? ? ? ? [E _] _ IH]; [reflexivity|]. cbn. congruence. }
  rewrite <- (G _ _ F1), <- (G _ _ F3). exact N.
Qed.
Lemma conforms_restated j j' : restated nm j j' -> forall s, conforms nm s j -> conforms nm s j'.
Proof.
  remember (size j) as n eqn:En. assert (B : size j <= n) by lia. clear En. revert j B j'.
  induction n as [|n IH]; intros j B j' K s C; [destruct j; cbn in B; lia|].
  assert (IHl : forall s l l', list_sum (map size l) <= n -> Forall2 (alike (same_number nm)) l l' -> Forall (conforms nm s) l -> Forall (conforms nm s) l').
  { intros s0 l l' Bl F. induction F as [|x x' l l' Kx F IHF]; intros G; [constructor|]. cbn in Bl. inversion G; subst.
    constructor; [apply (IH x ltac:(lia) x' Kx); assumption | apply IHF; [unfold list_sum in *; lia | assumption]]. }
  assert (IHe : forall fs l, elements nm fs l -> forall l', list_sum (map size l) <= n -> Forall2 (alike (same_number nm)) l l' -> elements nm fs l').
  { induction fs as [|[[k p] s0] fs IHf]; intros l E l' Bl F; inversion E; subst; inversion F; subst; try constructor.
    - cbn in Bl. eapply IH; [|eassumption|assumption]. lia.
    - cbn in Bl. eapply IHf; [eassumption| |assumption]. unfold list_sum in *. lia.
    - assumption. }
  assert (IHo : forall (Q : text -> Prop) s o p o', list_sum (map (fun e : text * json => let (_, j) := e in size j) o) <= n -> Permutation o p ->
    Forall2 (fun e e' => fst e = fst e' /\ alike (same_number nm) (snd e) (snd e')) p o' ->
    Forall (fun e => Q (fst e) /\ conforms nm s (snd e)) o -> Forall (fun e => Q (fst e) /\ conforms nm s (snd e)) o').
  { intros Q s0 o p o' Bo PE F G. apply (Permutation_Forall PE) in G.
    assert (Bp : forall e, In e p -> size (snd e) <= n).
    { intros e I. apply (Permutation_in _ (Permutation_sym PE)) in I. apply (in_sum (fun e : text * json => let (_, j) := e in size j)) in I. destruct e. cbn in *. lia. }
    clear Bo PE. induction F as [|e e' p o' [E A] F IHF]; [constructor|]. inversion G as [|? ? [Ge Ce] G']; subst. constructor.
    - rewrite <- E. split; [exact Ge|]. apply (IH (snd e) (Bp e (or_introl eq_refl)) _ A), Ce.
    - apply IHF; [exact G'|]. intros x I. apply Bp. right. exact I. }
  revert C. induction s as [| | | | | | |s IHs| | | | | |]; intros C; inversion C; subst; try (apply CfSome, IHs; assumption); inversion K; subst; try (econstructor; eassumption).
  - match goal with S : same_number _ _ _, R : read_int _ _ = Some _ |- _ => destruct S as [_ [_ S]]; econstructor; [exact (S _ R) | assumption] end.
  - match goal with S : same_number _ _ _, R : read64 _ _ = Some _ |- _ => destruct S as [S _]; econstructor; exact (S _ R) end.
  - match goal with S : same_number _ _ _, R : read32 _ _ = Some _ |- _ => destruct S as [_ [S _]]; econstructor; exact (S _ R) end.
  - constructor. cbn in B. eapply IHl; [|eassumption|assumption]. lia.
  - constructor. cbn in B. match goal with G : Forall _ _ |- _ => rename G into GG end.
    assert (X : Forall (fun e : text * json => True /\ conforms nm s (snd e)) o').
    { eapply (IHo (fun _ => True)); [|eassumption|eassumption|]; [lia|]. eapply Forall_impl; [|exact GG]. cbn. auto. }
    eapply Forall_impl; [|exact X]. cbn. tauto.
  - constructor. cbn in B. eapply (IHo (fun k => exists z, read_int nm k = Some z /\ (0 <= z < 2 ^ 64)%Z)); [|eassumption|eassumption|eassumption]. lia.
  - constructor. cbn in B. match goal with F : Forall2 (conforms nm) _ _, A : Forall2 (alike _) _ _ |- _ => rename F into F0; rename A into A0 end.
    assert (B0 : list_sum (map size l0) <= n) by lia. clear - IH F0 A0 B0. revert l' A0. induction F0 as [|s j ss l Cj F IHF]; intros l' A0; inversion A0 as [|? j' ? l2 Kj A]; subst; constructor.
    + cbn in B0. apply (IH j ltac:(lia) _ Kj), Cj.
    + apply IHF; [|exact A]. cbn in B0. unfold list_sum in *. lia.
  - constructor. intros k p0 s I. match goal with H : forall k p s, In _ _ -> _ |- _ => rename H into HH end.
    match goal with P : Permutation ?o p, F : Forall2 _ p ?o' |- _ => rename P into PE; rename F into FF end.
    destruct (HH k p0 s I) as [[N A]|[v [V Cv]]].
    + left. split; [exact N|]. intros J. apply A.
      assert (G : map fst p = map fst o').
      { clear - FF. induction FF as [|? ? ? ? [E _] _ IHF]; [reflexivity|]. cbn. congruence. }
      rewrite <- G in J. exact (Permutation_in _ (Permutation_map fst (Permutation_sym PE)) J).
    + right. destruct (once_alike k v _ _ _ PE FF V) as [v' [V' A]]. exists v'. split; [exact V'|].
      assert (Bv : size v <= n).
      { destruct V as [m [m' [-> _]]]. cbn in B. pose proof (in_sum (fun e : text * json => let (_, j) := e in size j) (s2t k, v) (m ++ (s2t k, v) :: m')
          ltac:(apply in_or_app; right; left; reflexivity)) as Q. cbn in Q. lia. }
      exact (IH v Bv v' A s Cv).
  - constructor. cbn in B. eapply IHe; [eassumption| |eassumption]. lia.
  - match goal with P : Permutation [_] p |- _ => apply Permutation_length_1_inv in P; subst end.
    match goal with F : Forall2 _ [_] _ |- _ => inversion F as [|? [k' v'] ? ? [E A] F1]; subst; inversion F1; subst end. cbn in E, A. subst. inversion A. subst. constructor. assumption.
  - match goal with P : Permutation [_] p |- _ => apply Permutation_length_1_inv in P; subst end.
    match goal with F : Forall2 _ [_] _ |- _ => inversion F as [|? [k' v'] ? ? [E A] F1]; subst; inversion F1; subst end. cbn in E, A, B. subst.
    eapply CfVariant; [eassumption|]. eapply IH; [|exact A | eassumption]. lia.
Qed.

(** ** Overlays applied *)
Lemma overlays_applied (FN : faithful nm) print parse v b a l ps : l <> [] -> expressible a -> (forall p, In p ps -> NoDup (map fst p)) ->
  jsonnet_adds nm print parse b (map (fun '(k, j) => (s2t k, j)) (members nm a)) l ps ->
  let r := apply_jsonnet_overlays v (with_serde nm print parse b) a l in
  ((forall k s j, In (k, s) parts -> decides k j ps -> conforms nm s j) -> exists a', r = Ret a') /\
  forall a', r = Ret a' ->
    (forall k j, In (k, j) (members nm a) -> (forall p, In p ps -> ~ names_part k p) -> exists w, In (k, w) (members nm a') /\ reordered j w) /\
    (forall c k j, expressible c -> In (k, j) (members nm c) -> decides k j ps -> exists w, In (k, w) (members nm a') /\ reordered j w).
Proof.
  intros NE X ND J r. set (o := map (fun '(k, j) => (s2t k, j)) (members nm a)).
  assert (W : to_value nm a = JObj o) by apply (wr_adaptation nm).
  assert (E : exists m j, evaluate b (print (JObj o) ++ flat_map (overlay_import b) l) = Some m /\ parse m = Some j /\ restated nm (JObj (merged_all o ps)) j).
  { apply J. apply program_eq. }
  destruct E as [m [j [Em [Ej K]]]].
  assert (R : r = match of_value nm j with Some a0 => Ret (rebuild_sector_index v a0) | None => Err end).
  { unfold r, apply_jsonnet_overlays. destruct l as [|p0 l]; [congruence|]. cbn [to_json with_serde from_option obind]. rewrite W.
    change (flat_map (overlay_import (with_serde nm print parse b)) (p0 :: l)) with (flat_map (overlay_import b) (p0 :: l)).
    cbn [evaluate with_serde]. rewrite Em. cbn [from_option obind of_json with_serde]. rewrite Ej. cbn [bind]. destruct (of_value nm j); reflexivity. }
  split.
  - intros H. pose proof (proj2 (overlay_accepted FN a ps X ND) H) as A. apply (accepts_adaptation nm) in A. apply (conforms_restated _ _ K) in A.
    apply (accepts_adaptation nm) in A. destruct A as [a0 A]. exists (rebuild_sector_index v a0). rewrite R. unfold of_value. rewrite A. reflexivity.
  - intros a' RA. rewrite RA in R. destruct (of_value nm j) as [a0|] eqn:A; [|discriminate R]. injection R as ->.
    change (members nm (rebuild_sector_index v a0)) with (members nm a0).
    assert (O : exists o', j = JObj o' /\ exists p, Permutation (merged_all o ps) p /\
      Forall2 (fun e e' => fst e = fst e' /\ alike (same_number nm) (snd e) (snd e')) p o') by (inversion K; subst; eauto).
    destruct O as [o' [-> [p [PE FF]]]].
    assert (G : forall c k j, expressible c -> In (k, j) (members nm c) -> once k j (merged_all o ps) -> exists w, In (k, w) (members nm a0) /\ reordered j w).
    { intros c k j Xc I V. destruct (once_alike k j _ _ _ PE FF V) as [j' [V' K']]. exact (local_adaptation FN c o' a0 Xc A k j j' I V' K'). }
    split.
    + intros k j I N. apply (G a k j X I). apply once_values. rewrite (proj2 (values_merged_all k o ps) N). apply (written_once a k j I).
    + intros c k j Xc I D. apply (G c k j Xc I). apply values_merged_all, D.
Qed.
End Parts.
