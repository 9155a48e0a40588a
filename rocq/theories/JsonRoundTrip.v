(** Reading what was written, for the types of an adaptation. *)
From Coq Require Import ZifyBool ZifyN ZifyNat.
From Verif Require Import Base Num Float Paths Colours ColoursProofs Settings Adaptation Json SpecJson JsonAdaptation JsonProofs.
From Verif Require Constraints Locations Airways Sectors Maps SctData SctItems Icao.

Section Types.
Context (nm : numerals) (FN : faithful nm).
Notation good := (good nm).

Fixpoint nodup (l : list text) : bool := match l with [] => true | x :: l => negb (existsb (eqb x) l) && nodup l end.
Lemma nodup_ok l : nodup l = true -> NoDup l.
Proof.
  induction l as [|x l IH]; intros H; constructor; cbn in H; apply andb_prop in H; destruct H as [H K]; [|apply IH, K].
  intros I. apply existsb_eqb in I. rewrite I in H. discriminate.
Qed.
Lemma notin_ok (x : text) (l : list text) : existsb (eqb x) l = false -> ~ In x l.
Proof. intros H I. apply existsb_eqb in I. congruence. Qed.

Ltac keys_ok := intros ? _; apply nodup_ok; vm_compute; reflexivity.
Lemma good_u32 : good (c_uint nm u32_max) u32_ok.
Proof. eapply good_iff; [apply good_uint; [exact FN | unfold u32_max, u64_max; lia]|]. intros n. unfold u32_ok, u32_max. lia. Qed.
Lemma nn_uint m P : nn (c_uint nm m) P. Proof. intros n _. discriminate. Qed.
Lemma good_i32 : good (c_int nm i32_min i32_max) i32_ok.
Proof. eapply good_iff; [apply good_int; [exact FN | unfold i32_min; lia | unfold i32_max; lia]|]. intros n. unfold i32_ok, i32_min, i32_max. lia. Qed.
Lemma good_i64 : good (c_int nm (-9223372036854775808) 9223372036854775807) i64_ok.
Proof. eapply good_iff; [apply good_int; [exact FN | lia | lia]|]. intros n. unfold i64_ok. lia. Qed.

Lemma good_field {A B} k (c : codec A) (f : fcodec B) P Q : good c P -> fgood nm f Q -> fgood nm (field k c f) (fun p => P (fst p) /\ Q (snd p)).
Proof. apply fgood_cons. Qed.
Lemma good_field_option {A B} k (c : codec A) (f : fcodec B) P Q : good c P -> nn c P -> fgood nm f Q ->
  fgood nm (field_option k c f) (fun p => when P (fst p) /\ Q (snd p)).
Proof. intros G N F. apply fgood_cons; [apply good_option; assumption | exact F]. Qed.
Lemma good_field_default {A B} k d (c : codec A) (f : fcodec B) P Q : good c P -> fgood nm f Q -> fgood nm (field_default k d c f) (fun p => P (fst p) /\ Q (snd p)).
Proof. apply fgood_cons. Qed.

Create HintDb codec.
Hint Resolve good_text good_bool good_unit good_u32 good_i32 good_i64 good_set fgood_nil tgood_nil egood_nil nn_text nn_uint nn_list nn_struct : codec.
Hint Extern 1 (JsonProofs.good _ (c_f64 _) _) => apply (good_f64 nm FN) : codec.
Hint Extern 1 (JsonProofs.good _ (c_f32 _) _) => apply (good_f32 nm FN) : codec.
Hint Extern 1 (JsonProofs.good _ (c_usize _) _) => apply (good_usize nm FN) : codec.
Hint Extern 1 (JsonProofs.good _ c_colour _) => apply good_colour : codec.
Hint Extern 1 (JsonProofs.nn (c_f32 _) _) => apply nn_f32 : codec.
Hint Extern 2 (JsonProofs.good _ (c_list _) _) => apply good_list : codec.
Hint Extern 2 (JsonProofs.good _ (c_map _) _) => apply good_map : codec.
Hint Extern 2 (JsonProofs.good _ (c_multi _) _) => apply good_multi : codec.
Hint Extern 2 (JsonProofs.good _ (c_id_map _ _) _) => apply (good_id_map nm FN) : codec.
Hint Extern 2 (JsonProofs.good _ (c_option _) _) => apply good_option : codec.
Hint Extern 2 (JsonProofs.good _ (c_pair _ _) _) => apply good_pair : codec.
Hint Extern 2 (JsonProofs.good _ (c_tuple _) _) => apply good_tuple : codec.
Hint Extern 2 (JsonProofs.tgood _ (tcons _ _) _) => apply tgood_cons : codec.
Hint Extern 2 (JsonProofs.good _ (c_struct _) _) => apply good_struct; [keys_ok|] : codec.
Hint Extern 2 (JsonProofs.fgood _ (field _ _ _) _) => apply good_field : codec.
Hint Extern 2 (JsonProofs.fgood _ (field_option _ _ _) _) => apply good_field_option : codec.
Hint Extern 2 (JsonProofs.fgood _ (field_default _ _ _ _) _) => apply good_field_default : codec.
Hint Extern 2 (JsonProofs.good _ (c_enum _) _) => eapply good_enum : codec.
Lemma good_variant0 {B} k (e : ecodec B) ks Q : egood nm e ks Q -> existsb (eqb (s2t k)) ks = false -> egood nm (variant0 k e) (s2t k :: ks) (either (fun _ => True) Q).
Proof. intros G N. apply egood_variant0; [apply notin_ok, N | exact G]. Qed.
Lemma good_variant {A B} k (c : codec A) (e : ecodec B) ks P Q :
  good c P -> egood nm e ks Q -> existsb (eqb (s2t k)) ks = false -> egood nm (variant k c e) (s2t k :: ks) (either P Q).
Proof. intros G H N. apply egood_variant; [apply notin_ok, N | exact G | exact H]. Qed.
Hint Extern 2 (JsonProofs.egood _ (variant0 _ _) _ _) => eapply good_variant0 : codec.
Hint Extern 2 (JsonProofs.egood _ (variant _ _ _) _ _) => eapply good_variant : codec.
Hint Extern 1 (existsb _ _ = false) => vm_compute; reflexivity : codec.

Lemma good_list_true {A} (c : codec A) : good c (fun _ => True) -> good (c_list c) (fun _ => True).
Proof. intros G. eapply good_iff; [apply good_list; exact G|]. intros l. split; [auto|]. intros _. apply Forall_forall. auto. Qed.
Lemma good_field_option_true {A B} k (c : codec A) (f : fcodec B) Q : good c (fun _ => True) -> nn c (fun _ => True) -> fgood nm f Q ->
  fgood nm (field_option k c f) (fun p => True /\ Q (snd p)).
Proof.
  intros G N F. apply (fgood_cons nm k (Some None) None (c_option c) f (fun _ => True)); [|exact F].
  eapply good_iff; [apply good_option; [exact G | exact N]|]. intros [a|]; cbn; tauto.
Qed.
Hint Resolve good_list_true : codec.
Hint Extern 1 (JsonProofs.fgood _ (field_option _ _ _) _) => apply good_field_option_true : codec.

Ltac opened :=
  repeat match goal with
         | p : (_ * _)%type |- _ => destruct p
         | u : unit |- _ => destruct u
         | s : (_ + _)%type |- _ => destruct s
         | e : Empty_set |- _ => destruct e
         end.
Ltac there := intros b _; destruct b; opened; reflexivity.
Ltac back := intros a _; opened; reflexivity.
Ltac record := eapply good_iff; [apply good_iso; [solve [eauto 60 with codec] | there | back] | ].
Ltac alright := intros a; destruct a; opened; cbn; try tauto.

Lemma good_point : good (c_point nm) point_ok.
Proof. record. unfold point_ok. alright. Qed.
Hint Resolve good_point : codec.
Lemma good_lines : good (c_lines nm) lines_ok.
Proof. unfold c_lines, lines_ok. eauto 10 with codec. Qed.
Hint Resolve good_lines : codec.
Lemma good_polygon : good (c_polygon nm) (Forall point_ok).
Proof.
  assert (G : good (c_struct (field "exterior" (c_list (c_point nm)) (field "interiors" (c_lines nm) fnil)))
                (fun p => Forall point_ok (fst p) /\ fst (snd p) = [])).
  { assert (F : good (c_struct (field "exterior" (c_list (c_point nm)) (field "interiors" (c_lines nm) fnil)))
                  (fun p => Forall point_ok (fst p) /\ lines_ok (fst (snd p)) /\ True))
      by (eapply good_iff; [eauto 20 with codec | intros p; reflexivity]).
    destruct F as [R S]. split.
    - intros [e [i []]] [H E]. cbn in H, E. subst. apply R. repeat split; [exact H | constructor].
    - intros [e [i []]] j [H E] K. cbn in H, E. subst. destruct (S (e, ([], tt)) _ (conj H (conj (Forall_nil _) I)) K) as [[e' [i' []]] [D [[H' _] L]]].
      exists (e', (i', tt)). repeat split; [exact D | exact H'| |exact L]. cbn.
      cbn in L. inversion L as [| | | | |o p o' PE F]; subst. inversion F as [|e1 ? ? ? [K1 L1] F1]; subst. inversion F1 as [|e2 ? ? ? [K2 L2] F2]; subst. inversion F2; subst.
      cbn in K1, K2, L1, L2. assert (I2 : In e2 [(s2t "exterior", JArr (map (enc (c_point nm)) e)); (s2t "interiors", JArr [])]).
      { apply (Permutation_in _ (Permutation_sym PE)). right. left. reflexivity. }
      destruct I2 as [<-|[<-|[]]]; [discriminate K2|]. cbn in L2. inversion L2 as [| | | |l l' FF|]; subst. inversion FF as [E1 E2|]. destruct i'; [reflexivity | discriminate]. }
  eapply good_iff; [apply good_iso; [exact G | there | ]|].
  - intros [e [i []]] [_ E]. cbn in *. subst. reflexivity.
  - intros l. cbn. tauto.
Qed.
Hint Resolve good_polygon : codec.
Lemma good_xy : good (c_xy nm) point_ok.
Proof. unfold c_xy. eapply good_iff; [eauto with codec|]. intros p. reflexivity. Qed.
Hint Resolve good_xy : codec.
Lemma good_fix : good (c_fix nm) fix_ok. Proof. record. unfold fix_ok. alright. Qed.
Hint Resolve good_fix : codec.
Lemma good_nav : good (c_nav nm) nav_ok. Proof. record. unfold nav_ok. alright. Qed.
Hint Resolve good_nav : codec.
Lemma good_runway : good (c_runway nm) runway_ok. Proof. record. unfold runway_ok. alright. Qed.
Hint Resolve good_runway : codec.
Lemma good_airport : good (c_airport nm) airport_ok. Proof. record. unfold airport_ok. alright. Qed.
Hint Resolve good_airport : codec.
Lemma good_procedure : good (c_procedure nm) procedure_ok. Proof. record. unfold procedure_ok. alright. Qed.
Hint Resolve good_procedure : codec.
Lemma good_airway_type : good c_airway_type (fun _ => True). Proof. record. alright. Qed.
Hint Resolve good_airway_type : codec.
Lemma good_edge : good (c_edge nm) edge_ok. Proof. record. unfold edge_ok. alright. Qed.
Hint Resolve good_edge : codec.
Lemma good_gfix : good (c_gfix nm) gfix_ok. Proof. record. unfold gfix_ok. alright. Qed.
Hint Resolve good_gfix : codec.
Lemma good_graph : good (c_graph nm) graph_ok. Proof. record. unfold graph_ok. alright. Qed.
Hint Resolve good_graph : codec.
Lemma good_locations : good (c_locations nm) locations_ok.
Proof. eapply good_iff; [apply good_iso; [solve [eauto 60 with codec] | intros [[] ?] _; reflexivity | back] | ]. unfold locations_ok. intros [[] ?]. cbn. tauto. Qed.
Hint Resolve good_locations : codec.
Lemma good_position : good (c_position nm) position_ok. Proof. record. unfold position_ok. alright. Qed.
Hint Resolve good_position : codec.
Lemma good_volume : good (c_volume nm) volume_ok. Proof. record. unfold volume_ok. alright. Qed.
Hint Resolve good_volume : codec.
Lemma good_runway_pair : good c_runway_pair (fun _ => True). Proof. record. alright. Qed.
Hint Resolve good_runway_pair : codec.
Lemma good_sector : good c_sector sector_ok. Proof. record. unfold sector_ok. alright. Qed.
Hint Resolve good_sector : codec.
Lemma good_timing : good (c_timing nm) timing_ok. Proof. record. unfold timing_ok. alright. Qed.
Hint Resolve good_timing : codec.
Lemma nn_timing P : nn (c_timing nm) P. Proof. intros x _. discriminate. Qed.
Hint Resolve nn_timing : codec.
Lemma good_constraint : good (c_constraint nm) constraint_ok. Proof. record. unfold constraint_ok. alright. Qed.
Hint Resolve good_constraint : codec.
Lemma good_horizontal : good c_horizontal (fun _ => True). Proof. record. alright. Qed.
Lemma good_vertical : good c_vertical (fun _ => True). Proof. record. alright. Qed.
Hint Resolve good_horizontal good_vertical : codec.
Lemma good_alignment : good c_alignment (fun _ => True). Proof. record. alright. Qed.
Lemma good_dash : good (c_dash nm) dash_ok. Proof. record. unfold dash_ok. alright. Qed.
Lemma good_line_style : good (c_line_style nm) style_ok. Proof. record. unfold style_ok. alright. Qed.
Lemma good_runway_id : good c_runway_id (fun _ => True). Proof. record. alright. Qed.
Hint Resolve good_alignment good_dash good_line_style good_runway_id : codec.
Lemma good_active_ids : good c_active_ids (fun _ => True). Proof. record. alright. Qed.
Lemma good_active_runways : good c_active_runways (fun _ => True). Proof. record. alright. Qed.
Lemma good_active_areas : good c_active_areas (fun _ => True). Proof. record. alright. Qed.
Lemma good_operator : good c_operator (fun _ => True). Proof. record. alright. Qed.
Hint Resolve good_active_ids good_active_runways good_active_areas good_operator : codec.
Lemma good_active : good c_active (fun _ => True). Proof. record. alright. Qed.
Hint Resolve good_active : codec.
Lemma good_label : good (c_label nm) label_ok. Proof. record. unfold label_ok. alright. Qed.
Lemma good_symbol : good (c_symbol nm) symbol_ok. Proof. record. unfold symbol_ok. alright. Qed.
Hint Resolve good_label good_symbol : codec.
Lemma good_group : good (c_group nm) group_ok. Proof. record. unfold group_ok. alright. Qed.
Hint Resolve good_group : codec.
Lemma good_map_ : good (c_map_ nm) map_ok. Proof. record. unfold map_ok. alright. Qed.
Hint Resolve good_map_ : codec.
Lemma good_folder : good (c_folder nm) folder_ok. Proof. record. unfold folder_ok. alright. Qed.
Hint Resolve good_folder : codec.
Lemma good_rule : good (c_rule nm) rule_ok. Proof. unfold c_rule, c_arc, c_elliptic. record. unfold rule_ok. alright. Qed.
Hint Resolve good_rule : codec.
Lemma good_symbols : good (c_symbols nm) symbols_ok. Proof. record. unfold symbols_ok. alright. rewrite !Forall_cons_iff. intuition constructor. Qed.
Hint Resolve good_symbols : codec.

(** ** Groups of colours *)
Definition value_of (k : string) (l : list (string * colour)) : colour := match get k l with Some c => c | None => from_rgb 0 0 0 end.
Lemma get_pick k (ks : list string) l : In k ks -> get k (pick ks l) = Some (value_of k l).
Proof.
  induction ks as [|x ks IH]; [intros []|]. intros H. unfold pick. cbn [map get]. destruct (eq_dec k x) as [->|N]; [reflexivity|].
  apply IH. destruct H as [H|H]; [congruence | exact H].
Qed.
Lemma pick_pick (ks fs : list string) l : incl ks fs -> pick ks (pick fs l) = pick ks l.
Proof. intros H. apply map_ext_in. intros k I. rewrite (get_pick k fs l (H k I)). reflexivity. Qed.
Lemma pick_same (l : list (string * colour)) : NoDup (map fst l) -> pick (map fst l) l = l.
Proof.
  induction l as [|[k c] l IH]; [reflexivity|]. unfold pick. cbn [map fst get]. intros N. inversion N as [|? ? NI N']; subst.
  f_equal; [destruct (eq_dec k k); [reflexivity | congruence]|]. transitivity (pick (map fst l) l); [|exact (IH N')]. apply map_ext_in. intros k' I. destruct (eq_dec k' k) as [->|]; [contradiction | reflexivity].
Qed.
Lemma pick_keys (ks : list string) l : map fst (pick ks l) = ks.
Proof. unfold pick. rewrite map_map. apply map_id. Qed.
Lemma pick_all (P : colour -> Prop) (ks : list string) l : incl ks (map fst l) -> Forall (fun e => P (snd e)) l -> Forall (fun e => P (snd e)) (pick ks l).
Proof.
  intros H F. apply Forall_forall. intros e I. apply in_map_iff in I. destruct I as [k [<- I]]. cbn.
  specialize (H k I). clear I. induction l as [|[k' c] l IH]; [destruct H|]. inversion F; subst. cbn [get]. destruct (eq_dec k k') as [|N]; [assumption|].
  apply IH; [|assumption]. destruct H as [H|H]; [cbn in H; congruence | exact H].
Qed.
Definition group_of (listed : list string) (l : list (string * colour)) : Prop := map fst l = listed /\ Forall (fun e => colour_ok (snd e)) l.
Lemma good_colour_group fields listed : NoDup fields -> NoDup listed -> NoDup (map s2t fields) -> incl fields listed -> incl listed fields ->
  good (c_colour_group fields listed) (group_of listed).
Proof.
  intros Nf Nl Nt I J. unfold c_colour_group.
  apply (good_iso_on nm _ _ _ (fun l => map fst l = fields /\ Forall (fun e => colour_ok (snd e)) l)).
  - apply good_struct; [|apply good_same_fields, good_colour]. intros l [E _]. rewrite keys_same_fields; assumption.
  - intros l [E F]. split; [split; [apply pick_keys | apply pick_all; [rewrite E; exact I | exact F]]|].
    rewrite pick_pick by exact J. rewrite <- E. apply pick_same. rewrite E. exact Nl.
  - intros l [E F]. split; [split; [apply pick_keys | apply pick_all; [rewrite E; exact J | exact F]]|].
    rewrite pick_pick by exact I. rewrite <- E. apply pick_same. rewrite E. exact Nf.
Qed.
Fixpoint distinct (l : list string) : bool := match l with [] => true | x :: l => negb (existsb (eqb x) l) && distinct l end.
Lemma distinct_ok l : distinct l = true -> NoDup l.
Proof.
  induction l as [|x l IH]; intros H; constructor; cbn in H; apply andb_prop in H; destruct H as [H K]; [|apply IH, K].
  intros I. assert (E : existsb (eqb x) l = true) by (apply existsb_exists; exists x; split; [exact I | unfold eqb; destruct (eq_dec x x); [reflexivity | congruence]]).
  rewrite E in H. discriminate.
Qed.
Lemma incl_ok (l m : list string) : forallb (fun x => existsb (eqb x) m) l = true -> incl l m.
Proof.
  intros H x I. rewrite forallb_forall in H. specialize (H x I). apply existsb_exists in H. destruct H as [y [J E]].
  unfold eqb in E. destruct (eq_dec x y) as [->|]; [exact J | discriminate].
Qed.
Ltac group := apply good_colour_group; [apply distinct_ok | apply distinct_ok | apply nodup_ok | apply incl_ok | apply incl_ok]; vm_compute; reflexivity.
Lemma good_track_colours : good (c_colour_group track_fields (keys (track_colours [] false))) (group_of (keys (track_colours [] false))). Proof. group. Qed.
Lemma good_sector_colours : good (c_colour_group sector_fields (keys (sector_colours []))) (group_of (keys (sector_colours []))). Proof. group. Qed.
Lemma good_map_colours : good (c_colour_group map_fields (keys (map_colours []))) (group_of (keys (map_colours []))). Proof. group. Qed.
Lemma good_ui_colours : good (c_colour_group ui_fields (keys (ui_colours [] false))) (group_of (keys (ui_colours [] false))). Proof. group. Qed.
Lemma good_colours : good c_colours colours_ok.
Proof.
  eapply good_iff; [apply good_iso; [apply good_struct; [keys_ok|]; apply good_field; [exact good_track_colours|]; apply good_field; [exact good_sector_colours|];
    apply good_field; [exact good_map_colours|]; apply good_field; [exact good_ui_colours|]; solve [eauto 20 with codec] | there | back] |].
  unfold colours_ok. intros [t s m u o]. cbn [col_track col_sector col_map col_ui col_other fst snd]. rewrite !Forall_app. unfold group_of, keys. tauto. Qed.
Hint Resolve good_colours : codec.

(** ** Paths *)
Lemma split_name (c : text) cur s : ~ In SLASH c -> split_slash cur (c ++ s) = split_slash (rev c ++ cur) s.
Proof.
  revert cur. induction c as [|x c IH]; intros cur H; [reflexivity|]. cbn. destruct (N.eqb_spec x SLASH) as [->|_]; [destruct H; left; reflexivity|].
  rewrite IH by (intros I; apply H; right; exact I). rewrite <- app_assoc. reflexivity.
Qed.
Lemma name_ok (c : text) : c <> [] /\ c <> s2t "." /\ ~ In 47%N c -> is_name c = true.
Proof.
  intros [A [B _]]. unfold is_name. destruct (eqb c []) eqn:E; [apply (eqb_true c []) in E; contradiction|].
  destruct (eqb c (s2t ".")) eqn:F; [apply (eqb_true c (s2t ".")) in F; contradiction | reflexivity].
Qed.
Lemma split_names l : (forall c, In c l -> ~ In SLASH c) -> forall cur, split_slash cur (flat_map (fun c => SLASH :: c) l) = rev cur :: l.
Proof.
  induction l as [|c l IH]; intros H cur; [reflexivity|]. cbn. f_equal. rewrite split_name by (apply H; left; reflexivity).
  rewrite IH by (intros x I; apply H; right; exact I). rewrite app_nil_r, rev_involutive. reflexivity.
Qed.
Lemma names_kept l : (forall c : text, In c l -> c <> [] /\ c <> s2t "." /\ ~ In 47%N c) -> filter is_name l = l.
Proof.
  induction l as [|c l IH]; intros H; [reflexivity|]. cbn. rewrite name_ok by (apply H; left; reflexivity). f_equal. apply IH. intros x I. apply H. right. exact I.
Qed.
Lemma to_path_display p : path_ok p -> to_path (display p) = p.
Proof.
  destruct p as [r l]. unfold path_ok, display, to_path. cbn [rooted comps]. intros H. destruct l as [|c l].
  - destruct r; reflexivity.
  - destruct (H c (or_introl eq_refl)) as [A [B C]].
    assert (E : filter is_name (split_slash [] (c ++ flat_map (fun c => SLASH :: c) l)) = c :: l).
    { rewrite split_name by exact C. rewrite split_names by (intros x I; apply H; right; exact I). rewrite app_nil_r, rev_involutive. apply names_kept, H. }
    destruct r.
    + cbn [app]. cbn. f_equal. exact E.
    + cbn [app]. rewrite E. f_equal. destruct c as [|x c]; [contradiction|]. cbn. destruct (N.eqb_spec x SLASH) as [->|]; [|reflexivity].
      destruct C. left. reflexivity.
Qed.
Lemma good_path : good c_path path_ok.
Proof.
  apply (good_iso_on nm _ _ _ (fun s => exists p, path_ok p /\ s = display p)).
  - split; [intros s _; reflexivity|]. intros s j H K. inversion K; subst. exists s. split; [reflexivity|]. split; [exact H | constructor].
  - intros p H. split; [exists p; auto | apply to_path_display, H].
  - intros s [p [H ->]]. rewrite to_path_display by exact H. auto.
Qed.
Lemma nn_path P : nn c_path P. Proof. intros x _. discriminate. Qed.
Hint Resolve good_path nn_path : codec.

(** ** Settings and the rest *)
Lemma good_line_settings : good (c_line_settings nm) (fun l => Forall style_ok [li_runway l; li_geo l; li_sid l; li_star l; li_high l; li_low l; li_artcc_low l; li_artcc l; li_artcc_high l]).
Proof. record. alright. rewrite !Forall_cons_iff. intuition constructor. Qed.
Lemma good_label_settings : good (c_label_settings nm) (fun l => Forall (fun e => is32 (snd e)) [la_vor l; la_ndb l; la_fix l; la_airport l; la_runway l]).
Proof. record. alright. rewrite !Forall_cons_iff. cbn. intuition constructor. Qed.
Lemma good_dots : good (c_dots nm) (fun '(e, c, o) => u32_ok c /\ Forall u32_ok o). Proof. record. alright. Qed.
Lemma good_vector : good (c_vector nm) (fun '(e, l, o) => is32 l /\ Forall is32 o). Proof. record. alright. Qed.
Hint Resolve good_line_settings good_label_settings good_dots good_vector : codec.
Lemma good_maps_settings : good (c_maps_settings nm) (fun '(f, m, li, la) => when path_ok f /\ is32 (Maps.st_font m) /\ is32 (Maps.st_layer m) /\ point_ok (Maps.st_offset m) /\
  Forall style_ok [li_runway li; li_geo li; li_sid li; li_star li; li_high li; li_low li; li_artcc_low li; li_artcc li; li_artcc_high li] /\
  Forall (fun e => is32 (snd e)) [la_vor la; la_ndb la; la_fix la; la_airport la; la_runway la]).
Proof.
  eapply good_iff; [apply good_iso; [solve [eauto 60 with codec] | intros [[[? []] ?] ?] _; reflexivity | back] |]. intros [[[? []] ?] ?]. cbn. tauto.
Qed.
Lemma good_track : good (c_track nm) (fun '(v, l, o, (d, c, p)) => is32 l /\ Forall is32 o /\ u32_ok c /\ Forall u32_ok p). Proof. record. alright. Qed.
Lemma good_ssr : good c_ssr (fun l => NoDup (map fst l)).
Proof. eapply good_iff; [apply good_iso; [solve [eauto 60 with codec] | reflexivity | back] |]. intros l. cbn. unfold entries. intuition. Qed.
Lemma good_coordination : good (c_coordination nm) (fun c => Forall is32 [co_act c; co_abi c; co_rev c; co_lam c] /\ entries timing_ok (co_firs c)).
Proof. record. alright. rewrite !Forall_cons_iff. intuition constructor. Qed.
Hint Resolve good_maps_settings good_track good_ssr good_coordination : codec.
Lemma good_settings : good (c_settings nm) settings_ok.
Proof. record. unfold settings_ok. intros []. opened. cbn. tauto. Qed.
Hint Resolve good_settings : codec.
Lemma good_wtc : good c_wtc (fun _ => True). Proof. record. alright. Qed.
Lemma good_aircraft_type : good c_aircraft_type (fun _ => True). Proof. record. alright. Qed.
Lemma good_engine_type : good c_engine_type (fun _ => True). Proof. record. alright. Qed.
Lemma good_u8 : good (c_uint nm u8_max) (fun n => (n < 256)%N).
Proof. eapply good_iff; [apply good_uint; [exact FN | unfold u8_max, u64_max; lia]|]. intros n. unfold u8_max. lia. Qed.
Hint Resolve good_wtc good_aircraft_type good_engine_type good_u8 : codec.
Lemma good_aircraft : good (c_aircraft nm) aircraft_ok. Proof. record. unfold aircraft_ok. alright. Qed.
Lemma good_airline : good c_airline (fun _ => True). Proof. record. alright. Qed.
Lemma good_coloured : good (c_coloured nm) coloured_ok. Proof. record. unfold coloured_ok. alright. Qed.
Lemma good_location : good (c_location nm) location_ok. Proof. record. unfold location_ok. alright. Qed.
Lemma good_region : good (c_region nm) region_ok. Proof. record. unfold region_ok. alright. Qed.
Hint Resolve good_aircraft good_airline good_coloured good_location good_region : codec.
Lemma good_sct_label : good (c_sct_label nm) sct_label_ok. Proof. record. unfold sct_label_ok. alright. Qed.
Hint Resolve good_sct_label : codec.
Lemma good_sct_items : good (c_sct_items nm) sct_items_ok. Proof. record. unfold sct_items_ok. alright. Qed.
Hint Resolve good_sct_items : codec.
Lemma good_adaptation : good (c_adaptation nm) (fun a => expressible a /\ ad_index a = None).
Proof.
  eapply good_iso_on; [solve [eauto 60 with codec] | |].
  - intros []. unfold expressible. cbn. intros [H ->]. split; [tauto | reflexivity].
  - intros a H. opened. unfold expressible. cbn in *. split; [tauto | reflexivity].
Qed.
End Types.
