(** What is read is an adaptation that JSON can express. *)
From Coq Require Import ZifyBool ZifyN ZifyNat.
From Verif Require Import Base Num Float Paths Colours ColoursProofs SpecColours Settings Adaptation Json SpecJson JsonAdaptation JsonProofs JsonRoundTrip.
From Verif Require Constraints Locations Airways Sectors Maps SctData SctItems Icao.
Local Open Scope string_scope.
Local Open Scope list_scope.

Section Sound.
Context (nm : numerals) (RN : reads_numbers nm).
Definition sound {A} (c : codec A) (P : A -> Prop) : Prop := forall j a, dec c j = Some a -> P a.
Definition fsound {A} (f : fcodec A) (P : A -> Prop) : Prop := (forall o a, fobj f o = Some a -> P a) /\ (forall l a, farr f l = Some a -> P a).
Definition tsound {A} (t : tcodec A) (P : A -> Prop) : Prop := forall l a, tdec t l = Some a -> P a.
Definition esound {A} (e : ecodec A) (P : A -> Prop) : Prop := (forall s a, estr e s = Some a -> P a) /\ (forall s j a, eobj e s j = Some a -> P a).

Lemma sound_iff {A} (c : codec A) (P Q : A -> Prop) : sound c P -> (forall a, P a -> Q a) -> sound c Q.
Proof. intros S H j a E. apply H, (S _ _ E). Qed.
Lemma sound_iso {A B} (f : A -> B) g (c : codec A) P (Q : B -> Prop) : sound c P -> (forall a, P a -> Q (f a)) -> sound (iso f g c) Q.
Proof. intros S H j b E. cbn in E. destruct (dec c j) as [a|] eqn:D; [|discriminate]. injection E as <-. apply H, (S _ _ D). Qed.
Lemma sound_true {A} (c : codec A) : sound c (fun _ => True). Proof. intros j a _. exact I. Qed.
Lemma sound_int lo hi : sound (c_int nm lo hi) (fun z => (lo <= z <= hi)%Z).
Proof.
  intros j a E. destruct j; try discriminate E. cbn in E. destruct (read_int nm n) as [z|]; [|discriminate]. cbn [bind] in E.
  destruct ((lo <=? z)%Z && (z <=? hi)%Z) eqn:B; [|discriminate]. injection E as <-. lia.
Qed.
Lemma sound_uint m : sound (c_uint nm m) (fun n => (n <= m)%N).
Proof. eapply sound_iso; [apply sound_int|]. intros z H. cbn in H. lia. Qed.
Lemma sound_u32 : sound (c_uint nm u32_max) u32_ok.
Proof. eapply sound_iff; [apply sound_uint|]. intros n. unfold u32_ok, u32_max. lia. Qed.
Lemma sound_u8 : sound (c_uint nm u8_max) (fun n => (n < 256)%N).
Proof. eapply sound_iff; [apply sound_uint|]. intros n. unfold u8_max. lia. Qed.
Lemma sound_usize : sound (c_usize nm) usize_ok.
Proof. eapply sound_iso; [apply sound_uint|]. intros n. unfold usize_ok, u64_max. lia. Qed.
Lemma sound_i32 : sound (c_int nm i32_min i32_max) i32_ok.
Proof. eapply sound_iff; [apply sound_int|]. intros n. unfold i32_ok, i32_min, i32_max. lia. Qed.
Lemma sound_i64 : sound (c_int nm (-9223372036854775808) 9223372036854775807) i64_ok.
Proof. eapply sound_iff; [apply sound_int|]. intros n. unfold i64_ok. lia. Qed.
Lemma sound_f64 : sound (c_f64 nm) is64. Proof. intros [] a E; try discriminate E. apply (proj1 RN n), E. Qed.
Lemma sound_f32 : sound (c_f32 nm) is32. Proof. intros [] a E; try discriminate E. apply (proj2 RN n), E. Qed.
Lemma sound_option {A} (c : codec A) P : sound c P -> sound (c_option c) (when P).
Proof.
  intros S j a E. cbn in E. destruct j; try (destruct (dec c _) as [x|] eqn:D; [|discriminate]; injection E as <-; exact (S _ _ D)). injection E as <-. exact I.
Qed.
Lemma all_some_sound {A B} (f : A -> option B) (P : B -> Prop) l r : (forall x y, f x = Some y -> P y) -> all_some f l = Some r -> Forall P r.
Proof.
  intros H. revert r. induction l as [|x l IH]; cbn; intros r E; [injection E as <-; constructor|].
  destruct (f x) as [y|] eqn:F; [|discriminate]. cbn [bind] in E. destruct (all_some f l) as [ys|]; [|discriminate]. cbn [bind] in E. injection E as <-.
  constructor; [apply (H _ _ F) | apply IH; reflexivity].
Qed.
Lemma sound_list {A} (c : codec A) P : sound c P -> sound (c_list c) (Forall P).
Proof. intros S [] a E; try discriminate E. cbn in E. eapply all_some_sound; [|exact E]. intros x y. apply S. Qed.
Lemma put_all_forall {K A} `{EqDec K} (P : K * A -> Prop) l : Forall P l -> forall m, Forall P m -> Forall P (put_all l m).
Proof.
  assert (G : forall k a m, P (k, a) -> Forall P m -> Forall P (put k a m)).
  { intros k a m X F. induction F as [|[k' a'] m Y F IH]; cbn; [repeat constructor; exact X|]. destruct (eq_dec k k'); constructor; assumption. }
  induction 1 as [|[k a] l X F IH]; intros m M; [exact M|]. cbn. apply IH, G; assumption.
Qed.
Lemma of_list_entries {K A} `{EqDec K} (P : A -> Prop) (l : list (K * A)) : Forall (fun e => P (snd e)) l -> entries P (of_list l).
Proof.
  intros F. split; [apply NoDup_of_list|]. intros k a I. assert (G : Forall (fun e => P (snd e)) (of_list l)) by (apply put_all_forall; [exact F | constructor]).
  rewrite Forall_forall in G. apply (G _ I).
Qed.
Lemma sound_map {A} (c : codec A) P : sound c P -> sound (c_map c) (entries P).
Proof.
  intros S [] a E; try discriminate E. cbn in E. destruct (all_some _ l) as [r|] eqn:D; [|discriminate]. injection E as <-. apply of_list_entries.
  eapply all_some_sound; [|exact D]. intros [k j] [k' x] X. destruct (dec c j) as [y|] eqn:Y; [|discriminate]. injection X as <- <-. exact (S _ _ Y).
Qed.
Lemma sound_multi {A} (c : codec A) P : sound c P -> sound (c_multi c) (multi P).
Proof. intros S. apply sound_map, sound_list, S. Qed.
Lemma sound_id_map {A} (c : codec A) P : sound c P -> sound (c_id_map nm c) (fun m => entries P m /\ Forall usize_ok (map fst m)).
Proof.
  intros S [] a E; try discriminate E. cbn in E. destruct (all_some _ l) as [r|] eqn:D; [|discriminate]. injection E as <-.
  assert (F : Forall (fun e => usize_ok (fst e) /\ P (snd e)) r).
  { eapply all_some_sound; [|exact D]. intros [k j] [k' x] X. unfold key_of in X. destruct (read_int nm k) as [z|]; [|discriminate]. cbn [bind] in X.
    destruct ((0 <=? z)%Z && (z <=? Z.of_N u64_max)%Z) eqn:B; [|discriminate]. cbn [bind] in X. destruct (dec c j) as [y|] eqn:Y; [|discriminate]. injection X as <- <-.
    split; [|exact (S _ _ Y)]. cbn [fst]. unfold usize_ok, u64_max in *. lia. }
  split.
  - apply of_list_entries. eapply Forall_impl; [|exact F]. cbn. tauto.
  - rewrite Forall_map. apply (put_all_forall (fun e => usize_ok (fst e))); [|constructor]. eapply Forall_impl; [|exact F]. cbn. tauto.
Qed.
Lemma sound_set : sound c_set (@NoDup text).
Proof.
  eapply sound_iso; [apply sound_true|]. intros l _. assert (G : forall m : list text, NoDup m -> NoDup (fold_left (fun l s => insert s l) l m)); [|apply G; constructor].
  induction l as [|x l IH]; intros m N; [exact N|]. cbn. apply IH. unfold insert. destruct (existsb (eqb x) m) eqn:E; [exact N|].
  rewrite <- (rev_involutive (m ++ [x])). apply NoDup_rev. rewrite rev_app_distr. cbn. constructor; [|apply NoDup_rev, N].
  rewrite <- in_rev. intros I. apply existsb_eqb in I. congruence.
Qed.
Lemma tsound_nil : tsound tnil (fun _ => True). Proof. intros l a _. exact I. Qed.
Lemma tsound_cons {A B} (c : codec A) (t : tcodec B) P Q : sound c P -> tsound t Q -> tsound (tcons c t) (fun p => P (fst p) /\ Q (snd p)).
Proof.
  intros S T [|j l] a E; [discriminate|]. cbn in E. destruct (dec c j) as [x|] eqn:D; [|discriminate]. cbn [bind] in E.
  destruct (tdec t l) as [y|] eqn:D'; [|discriminate]. injection E as <-. split; [exact (S _ _ D) | exact (T _ _ D')].
Qed.
Lemma sound_tuple {A} (t : tcodec A) P : tsound t P -> sound (c_tuple t) P.
Proof. intros T [] a E; try discriminate E. exact (T _ _ E). Qed.
Lemma sound_pair {A B} (c : codec A) (d : codec B) P Q : sound c P -> sound d Q -> sound (c_pair c d) (fun p => P (fst p) /\ Q (snd p)).
Proof.
  intros S T. eapply sound_iso; [apply sound_tuple, tsound_cons; [exact S | apply tsound_cons; [exact T | apply tsound_nil]]|]. intros [a [b []]]. cbn. tauto.
Qed.
Lemma fsound_nil : fsound fnil (fun _ => True). Proof. split; intros ? ? _; exact I. Qed.
Lemma fsound_cons {A B} k (io ia : option A) (c : codec A) (f : fcodec B) (P : A -> Prop) Q : when P io -> when P ia -> sound c P -> fsound f Q ->
  fsound (fcons k io ia c f) (fun p => P (fst p) /\ Q (snd p)).
Proof.
  intros WO WA S [FO FA]. split.
  - intros o a E. cbn in E. destruct (values (s2t k) o) as [|j [|]].
    + destruct io as [x|]; [|discriminate]. cbn [bind] in E. destruct (fobj f o) as [y|] eqn:D; [|discriminate]. injection E as <-. split; [exact WO | exact (FO _ _ D)].
    + destruct (dec c j) as [x|] eqn:X; [|discriminate]. cbn [bind] in E. destruct (fobj f o) as [y|] eqn:D; [|discriminate]. injection E as <-.
      split; [exact (S _ _ X) | exact (FO _ _ D)].
    + discriminate.
  - intros [|j l] a E; cbn in E.
    + destruct ia as [x|]; [|discriminate]. cbn [bind] in E. destruct (farr f []) as [y|] eqn:D; [|discriminate]. injection E as <-. split; [exact WA | exact (FA _ _ D)].
    + destruct (dec c j) as [x|] eqn:X; [|discriminate]. cbn [bind] in E. destruct (farr f l) as [y|] eqn:D; [|discriminate]. injection E as <-.
      split; [exact (S _ _ X) | exact (FA _ _ D)].
Qed.
Lemma sound_field {A B} k (c : codec A) (f : fcodec B) P Q : sound c P -> fsound f Q -> fsound (field k c f) (fun p => P (fst p) /\ Q (snd p)).
Proof. intros S F. apply fsound_cons; try exact I; assumption. Qed.
Lemma sound_field_option {A B} k (c : codec A) (f : fcodec B) P Q : sound c P -> fsound f Q -> fsound (field_option k c f) (fun p => when P (fst p) /\ Q (snd p)).
Proof. intros S F. apply fsound_cons; [exact I | exact I | apply sound_option, S | exact F]. Qed.
Lemma sound_field_default {A B} k d (c : codec A) (f : fcodec B) (P : A -> Prop) Q : P d -> sound c P -> fsound f Q ->
  fsound (field_default k d c f) (fun p => P (fst p) /\ Q (snd p)).
Proof. intros D S F. apply fsound_cons; assumption. Qed.
Lemma sound_struct {A} (f : fcodec A) P : fsound f P -> sound (c_struct f) P.
Proof. intros [FO FA] [] a E; try discriminate E; [exact (FA _ _ E) | exact (FO _ _ E)]. Qed.
Lemma sound_same {A} (ks : list string) (c : codec A) P : sound c P -> fsound (same_fields ks c) (fun l => map fst l = ks /\ Forall (fun e => P (snd e)) l).
Proof.
  intros S. induction ks as [|k ks IH].
  - split; [intros o a E; injection E as <-; auto|]. intros [|j l] a E; [injection E as <-; auto | discriminate].
  - destruct (sound_field k c (same_fields ks c) _ _ S IH) as [FO FA]. split.
    + intros o a E. cbn [same_fields fobj] in E. destruct (fobj (field k c (same_fields ks c)) o) as [[x l]|] eqn:D; [|discriminate]. injection E as <-.
      destruct (FO _ _ D) as [X [M F]]. cbn [fst snd map] in *. split; [congruence | constructor; assumption].
    + intros l0 a E. cbn [same_fields farr] in E. destruct (farr (field k c (same_fields ks c)) l0) as [[x l]|] eqn:D; [|discriminate]. injection E as <-.
      destruct (FA _ _ D) as [X [M F]]. cbn [fst snd map] in *. split; [congruence | constructor; assumption].
Qed.
Lemma esound_nil : esound enil (fun _ => True). Proof. split; intros; exact I. Qed.
Lemma esound_variant0 {B} k (e : ecodec B) Q : esound e Q -> esound (variant0 k e) (either (fun _ => True) Q).
Proof.
  intros [ES EO]. split.
  - intros s a E. cbn in E. destruct (eq_dec s (s2t k)); [injection E as <-; exact I|]. destruct (estr e s) as [x|] eqn:D; [|discriminate]. injection E as <-. exact (ES _ _ D).
  - intros s j a E. cbn in E. destruct (eq_dec s (s2t k)); [destruct j; try discriminate E; injection E as <-; exact I|].
    destruct (eobj e s j) as [x|] eqn:D; [|discriminate]. injection E as <-. exact (EO _ _ _ D).
Qed.
Lemma esound_variant {A B} k (c : codec A) (e : ecodec B) P Q : sound c P -> esound e Q -> esound (variant k c e) (either P Q).
Proof.
  intros S [ES EO]. split.
  - intros s a E. cbn in E. destruct (eq_dec s (s2t k)); [discriminate|]. destruct (estr e s) as [x|] eqn:D; [|discriminate]. injection E as <-. exact (ES _ _ D).
  - intros s j a E. cbn in E. destruct (eq_dec s (s2t k)).
    + destruct (dec c j) as [x|] eqn:D; [|discriminate]. injection E as <-. exact (S _ _ D).
    + destruct (eobj e s j) as [x|] eqn:D; [|discriminate]. injection E as <-. exact (EO _ _ _ D).
Qed.
Lemma sound_enum {A} (e : ecodec A) P : esound e P -> sound (c_enum e) P.
Proof. intros [ES EO] [| | | | |[|[k j] [|]]] a E; try discriminate E; [exact (ES _ _ E) | exact (EO _ _ _ E)]. Qed.

(** ** The types of an adaptation *)
Lemma sound_colour : sound c_colour colour_ok.
Proof.
  intros [] a E; try discriminate E. cbn in E. apply visit_str_spec in E.
  destruct E as [r1 [r2 [g1 [g2 [b1 [b2 [v1 [v2 [v3 [v4 [v5 [v6 [_ [H1 [H2 [H3 [H4 [H5 [H6 ->]]]]]]]]]]]]]]]]]]].
  assert (B : forall c v, hex_digit c v -> (v < 16)%N) by (intros c v; unfold hex_digit; lia).
  apply B in H1, H2, H3, H4, H5, H6. unfold colour_ok, wf_colour, from_rgb. cbn [cr cg cb ca]. repeat split; lia.
Qed.
Lemma sound_path : sound c_path path_ok.
Proof.
  eapply sound_iso; [apply sound_true|]. intros s _ c I. unfold to_path in I. cbn [comps] in I. apply filter_In in I. destruct I as [I N].
  unfold is_name in N. apply andb_prop in N. destruct N as [N M]. rewrite negb_true_iff in *. apply eqb_false in N, M. split; [exact N|]. split; [exact M|].
  assert (G : forall s acc, ~ In SLASH acc -> In c (split_slash acc s) -> ~ In SLASH c); [|apply (G s []); [intros [] | exact I]].
  clear. induction s as [|x s IH]; cbn [split_slash]; intros acc H I.
  - destruct I as [<-|[]]. rewrite <- in_rev. exact H.
  - destruct (N.eqb_spec x SLASH) as [->|NE].
    + destruct I as [<-|I]; [rewrite <- in_rev; exact H | apply (IH [] ltac:(intros [])) in I; exact I].
    + apply (IH (x :: acc)) in I; [exact I|]. intros [->|J]; [contradiction | exact (H J)].
Qed.

Create HintDb snd.
Hint Resolve sound_u32 sound_u8 sound_usize sound_i32 sound_i64 sound_f64 sound_f32 sound_set sound_colour sound_path fsound_nil tsound_nil esound_nil : snd.
Hint Extern 1 (sound c_text _) => apply sound_true : snd.
Hint Extern 1 (sound c_bool _) => apply sound_true : snd.
Hint Extern 1 (sound c_unit _) => apply sound_true : snd.
Hint Extern 2 (sound (c_list _) _) => apply sound_list : snd.
Hint Extern 2 (sound (c_map _) _) => apply sound_map : snd.
Hint Extern 2 (sound (c_multi _) _) => apply sound_multi : snd.
Hint Extern 2 (sound (c_id_map _ _) _) => apply sound_id_map : snd.
Hint Extern 2 (sound (c_option _) _) => apply sound_option : snd.
Hint Extern 2 (sound (c_pair _ _) _) => apply sound_pair : snd.
Hint Extern 2 (sound (c_tuple _) _) => apply sound_tuple : snd.
Hint Extern 2 (tsound (tcons _ _) _) => apply tsound_cons : snd.
Hint Extern 2 (sound (c_struct _) _) => apply sound_struct : snd.
Hint Extern 2 (fsound (field _ _ _) _) => apply sound_field : snd.
Hint Extern 2 (fsound (field_option _ _ _) _) => apply sound_field_option : snd.
Hint Extern 2 (sound (c_enum _) _) => apply sound_enum : snd.
Hint Extern 2 (esound (variant0 _ _) _) => apply esound_variant0 : snd.
Hint Extern 2 (esound (variant _ _ _) _) => apply esound_variant : snd.
Ltac opened :=
  repeat match goal with
         | p : (_ * _)%type |- _ => destruct p
         | u : unit |- _ => destruct u
         | s : (_ + _)%type |- _ => destruct s
         | e : Empty_set |- _ => destruct e
         end.
Ltac record := eapply sound_iso; [solve [eauto 60 with snd] | intros a; opened; cbn; try tauto].

Lemma sound_point : sound (c_point nm) point_ok. Proof. unfold point_ok. record. Qed.
Hint Resolve sound_point : snd.
Lemma sound_lines : sound (c_lines nm) lines_ok. Proof. unfold c_lines, lines_ok. eauto 10 with snd. Qed.
Hint Resolve sound_lines : snd.
Lemma sound_polygon : sound (c_polygon nm) (Forall point_ok). Proof. record. Qed.
Hint Resolve sound_polygon : snd.
Lemma sound_xy : sound (c_xy nm) point_ok. Proof. unfold c_xy. eapply sound_iff; [solve [eauto 10 with snd]|]. intros p H. exact H. Qed.
Hint Resolve sound_xy : snd.
Lemma sound_fix : sound (c_fix nm) fix_ok. Proof. unfold fix_ok. record. Qed.
Hint Resolve sound_fix : snd.
Lemma sound_nav : sound (c_nav nm) nav_ok. Proof. unfold nav_ok. record. Qed.
Hint Resolve sound_nav : snd.
Lemma sound_runway : sound (c_runway nm) runway_ok. Proof. unfold runway_ok. record. Qed.
Hint Resolve sound_runway : snd.
Lemma sound_airport : sound (c_airport nm) airport_ok. Proof. unfold airport_ok. record. Qed.
Hint Resolve sound_airport : snd.
Lemma sound_procedure : sound (c_procedure nm) procedure_ok. Proof. unfold procedure_ok. record. Qed.
Hint Resolve sound_procedure : snd.
Hint Extern 1 (sound c_airway_type _) => apply sound_true : snd.
Lemma sound_edge : sound (c_edge nm) edge_ok. Proof. unfold edge_ok. record. Qed.
Hint Resolve sound_edge : snd.
Lemma sound_gfix : sound (c_gfix nm) gfix_ok. Proof. unfold gfix_ok. record. Qed.
Hint Resolve sound_gfix : snd.
Lemma sound_graph : sound (c_graph nm) graph_ok. Proof. unfold graph_ok. record. Qed.
Hint Resolve sound_graph : snd.
Lemma sound_locations : sound (c_locations nm) locations_ok. Proof. unfold locations_ok. record. Qed.
Hint Resolve sound_locations : snd.
Lemma sound_position : sound (c_position nm) position_ok. Proof. unfold position_ok. record. Qed.
Hint Resolve sound_position : snd.
Lemma sound_volume : sound (c_volume nm) volume_ok. Proof. unfold volume_ok. record. Qed.
Hint Resolve sound_volume : snd.
Hint Extern 1 (sound c_runway_pair _) => apply sound_true : snd.
Lemma sound_sector : sound c_sector sector_ok. Proof. unfold sector_ok. record. Qed.
Hint Resolve sound_sector : snd.
Lemma sound_timing : sound (c_timing nm) timing_ok. Proof. unfold timing_ok. record. Qed.
Hint Resolve sound_timing : snd.
Lemma sound_constraint : sound (c_constraint nm) constraint_ok. Proof. 
  unfold constraint_ok. eapply sound_iso.
  - apply sound_struct. repeat first [apply sound_field_option | apply sound_field]; try solve [eauto with snd].
    apply (sound_field_default _ _ _ _ (when timing_ok)); [exact I | eauto with snd | apply fsound_nil].
  - intros a. opened. cbn. tauto.
 Qed.
Hint Resolve sound_constraint : snd.
Hint Extern 1 (sound c_horizontal _) => apply sound_true : snd.
Hint Extern 1 (sound c_vertical _) => apply sound_true : snd.
Hint Extern 1 (sound c_alignment _) => apply sound_true : snd.
Lemma sound_dash : sound (c_dash nm) dash_ok. Proof. unfold dash_ok. record. Qed.
Hint Resolve sound_dash : snd.
Lemma sound_line_style : sound (c_line_style nm) style_ok. Proof. unfold style_ok. record. Qed.
Hint Resolve sound_line_style : snd.
Hint Extern 1 (sound c_runway_id _) => apply sound_true : snd.
Hint Extern 1 (sound c_active_ids _) => apply sound_true : snd.
Hint Extern 1 (sound c_active_runways _) => apply sound_true : snd.
Hint Extern 1 (sound c_active_areas _) => apply sound_true : snd.
Hint Extern 1 (sound c_operator _) => apply sound_true : snd.
Hint Extern 1 (sound c_active _) => apply sound_true : snd.
Lemma sound_label : sound (c_label nm) label_ok. Proof. unfold label_ok. record. Qed.
Hint Resolve sound_label : snd.
Lemma sound_symbol : sound (c_symbol nm) symbol_ok. Proof. unfold symbol_ok. record. Qed.
Hint Resolve sound_symbol : snd.
Lemma sound_group : sound (c_group nm) group_ok. Proof. unfold group_ok. record. Qed.
Hint Resolve sound_group : snd.
Lemma sound_map_ : sound (c_map_ nm) map_ok. Proof. unfold map_ok. record. Qed.
Hint Resolve sound_map_ : snd.
Lemma sound_folder : sound (c_folder nm) folder_ok. Proof. unfold folder_ok. record. Qed.
Hint Resolve sound_folder : snd.
Lemma sound_rule : sound (c_rule nm) rule_ok. Proof. unfold c_rule, c_arc, c_elliptic. record. Qed.
Hint Resolve sound_rule : snd.
Lemma sound_symbols : sound (c_symbols nm) symbols_ok. Proof. unfold symbols_ok. record. rewrite !Forall_cons_iff. intuition constructor. Qed.
Hint Resolve sound_symbols : snd.
Lemma sound_group_of fields listed : incl listed fields -> sound (c_colour_group fields listed) (group_of listed).
Proof.
  intros J. unfold c_colour_group. eapply sound_iso; [apply sound_struct, sound_same, sound_colour|]. intros l [E F]. cbn beta in E.
  split; [apply pick_keys | apply pick_all; [rewrite E; exact J | exact F]].
Qed.
Ltac colour_group := apply sound_group_of, incl_ok; vm_compute; reflexivity.
Lemma sound_colours : sound c_colours colours_ok.
Proof.
  unfold c_colours. eapply sound_iso.
  - apply sound_struct. apply sound_field; [colour_group|]. apply sound_field; [colour_group|]. apply sound_field; [colour_group|]. apply sound_field; [colour_group|].
    solve [eauto 10 with snd].
  - intros [t [s [m [u [o []]]]]]. unfold group_of, colours_ok. cbn [fst snd col_track col_sector col_map col_ui col_other]. rewrite !Forall_app. tauto.
Qed.
Hint Resolve sound_colours : snd.
Lemma sound_line_settings : sound (c_line_settings nm) (fun l => Forall style_ok [li_runway l; li_geo l; li_sid l; li_star l; li_high l; li_low l; li_artcc_low l; li_artcc l; li_artcc_high l]). Proof. record. rewrite !Forall_cons_iff. intuition constructor. Qed.
Hint Resolve sound_line_settings : snd.
Lemma sound_label_settings : sound (c_label_settings nm) (fun l => Forall (fun e => is32 (snd e)) [la_vor l; la_ndb l; la_fix l; la_airport l; la_runway l]). Proof. record. rewrite !Forall_cons_iff. cbn. intuition constructor. Qed.
Hint Resolve sound_label_settings : snd.
Lemma sound_dots : sound (c_dots nm) (fun '(e, c, o) => u32_ok c /\ Forall u32_ok o). Proof. record. Qed.
Hint Resolve sound_dots : snd.
Lemma sound_vector : sound (c_vector nm) (fun '(e, l, o) => is32 l /\ Forall is32 o). Proof. record. Qed.
Hint Resolve sound_vector : snd.
Lemma sound_maps_settings : sound (c_maps_settings nm) (fun '(f, m, li, la) => when path_ok f /\ is32 (Maps.st_font m) /\ is32 (Maps.st_layer m) /\ point_ok (Maps.st_offset m) /\
  Forall style_ok [li_runway li; li_geo li; li_sid li; li_star li; li_high li; li_low li; li_artcc_low li; li_artcc li; li_artcc_high li] /\
  Forall (fun e => is32 (snd e)) [la_vor la; la_ndb la; la_fix la; la_airport la; la_runway la]). Proof. record. Qed.
Hint Resolve sound_maps_settings : snd.
Lemma sound_track : sound (c_track nm) (fun '(v, l, o, (d, c, p)) => is32 l /\ Forall is32 o /\ u32_ok c /\ Forall u32_ok p). Proof. record. Qed.
Hint Resolve sound_track : snd.
Lemma sound_ssr : sound c_ssr (fun l => NoDup (map fst l)). Proof. record. unfold entries. tauto. Qed.
Hint Resolve sound_ssr : snd.
Lemma sound_coordination : sound (c_coordination nm) (fun c => Forall is32 [co_act c; co_abi c; co_rev c; co_lam c] /\ entries timing_ok (co_firs c)). Proof. 
  eapply sound_iso.
  - apply sound_struct. repeat first [apply sound_field_option | apply sound_field]; try solve [eauto with snd].
    apply (sound_field_default _ _ _ _ (entries timing_ok)); [split; [constructor | intros k a []] | eauto with snd | apply fsound_nil].
  - intros a. opened. cbn. rewrite !Forall_cons_iff. intuition constructor.
 Qed.
Hint Resolve sound_coordination : snd.
Lemma sound_settings : sound (c_settings nm) settings_ok. Proof. unfold settings_ok. record. Qed.
Hint Resolve sound_settings : snd.
Hint Extern 1 (sound c_wtc _) => apply sound_true : snd.
Hint Extern 1 (sound c_aircraft_type _) => apply sound_true : snd.
Hint Extern 1 (sound c_engine_type _) => apply sound_true : snd.
Lemma sound_aircraft : sound (c_aircraft nm) aircraft_ok. Proof. unfold aircraft_ok. record. Qed.
Hint Resolve sound_aircraft : snd.
Hint Extern 1 (sound c_airline _) => apply sound_true : snd.
Lemma sound_coloured : sound (c_coloured nm) coloured_ok. Proof. unfold coloured_ok. record. Qed.
Hint Resolve sound_coloured : snd.
Lemma sound_location : sound (c_location nm) location_ok. Proof. unfold location_ok. record. Qed.
Hint Resolve sound_location : snd.
Lemma sound_region : sound (c_region nm) region_ok. Proof. unfold region_ok. record. Qed.
Hint Resolve sound_region : snd.
Lemma sound_sct_label : sound (c_sct_label nm) sct_label_ok. Proof. unfold sct_label_ok. record. Qed.
Hint Resolve sound_sct_label : snd.
Lemma sound_sct_items : sound (c_sct_items nm) sct_items_ok. Proof. unfold sct_items_ok. record. Qed.
Hint Resolve sound_sct_items : snd.
Lemma sound_adaptation : sound (c_adaptation nm) (fun a => expressible a /\ ad_index a = None). Proof. unfold expressible. record. Qed.
Hint Resolve sound_adaptation : snd.
End Sound.
