(** The JSON values that are read: those of the schema. *)
From Coq Require Import ZifyBool ZifyN ZifyNat.
From Verif Require Import Base Num NumProofs Float Paths Colours ColoursProofs SpecColours Settings Adaptation Json SpecJson JsonAdaptation JsonProofs.
From Verif Require Constraints Locations Airways Sectors Maps SctData SctItems Icao.
Local Open Scope string_scope.
Local Open Scope list_scope.

Section Accepts.
Context (nm : numerals).
Definition accepts {A} (c : codec A) (s : schema) : Prop := forall j, (exists a, dec c j = Some a) <-> conforms nm s j.

Ltac none := let H := fresh in split; intros H; [destruct H as [? H]; discriminate H | inversion H].
Lemma accepts_iso {A B} (f : A -> B) g c s : accepts c s -> accepts (iso f g c) s.
Proof.
  intros H j. rewrite <- (H j). cbn. split; intros [a E].
  - destruct (dec c j) as [x|]; [exists x; reflexivity | discriminate].
  - rewrite E. exists (f a). reflexivity.
Qed.
Lemma accepts_text : accepts c_text SText.
Proof. intros []; try none. split; [constructor | eexists; reflexivity]. Qed.
Lemma accepts_bool : accepts c_bool SBool.
Proof. intros []; try none. split; [constructor | eexists; reflexivity]. Qed.
Lemma accepts_unit : accepts c_unit SNull.
Proof. intros []; try none. split; [constructor | eexists; reflexivity]. Qed.
Lemma accepts_int lo hi : accepts (c_int nm lo hi) (SInt lo hi).
Proof.
  intros []; try none. cbn. split.
  - intros [a E]. destruct (read_int nm n) as [z|] eqn:R; [|discriminate]. cbn in E. destruct ((lo <=? z)%Z && (z <=? hi)%Z) eqn:B; [|discriminate].
    econstructor; [exact R | lia].
  - intros H. inversion H as [| | |? ? ? z R B| | | | | | | | | | | | | |]; subst. rewrite R. cbn. exists z. destruct ((lo <=? z)%Z && (z <=? hi)%Z) eqn:X; [reflexivity | lia].
Qed.
Lemma accepts_uint m : accepts (c_uint nm m) (SInt 0 (Z.of_N m)).
Proof. apply accepts_iso, accepts_int. Qed.
Lemma accepts_usize : accepts (c_usize nm) s_usize.
Proof. apply accepts_iso, accepts_uint. Qed.
Lemma accepts_f64 : accepts (c_f64 nm) SFloat.
Proof. intros []; try none. cbn. split; [intros [a E]; econstructor; exact E | intros H; inversion H; subst; eauto]. Qed.
Lemma accepts_f32 : accepts (c_f32 nm) SFloat32.
Proof. intros []; try none. cbn. split; [intros [a E]; econstructor; exact E | intros H; inversion H; subst; eauto]. Qed.
Lemma accepts_option {A} (c : codec A) s : accepts c s -> accepts (c_option c) (SOption s).
Proof.
  intros H j. cbn. split.
  - intros [a E]. destruct j; try (apply CfSome, H; destruct (dec c _) as [x|]; [exists x; reflexivity | discriminate]). apply CfNone.
  - intros K. inversion K as [| | | | | | |s'|s' j' K'| | | | | | | | |]; subst; [exists None; reflexivity|]. apply H in K'. destruct K' as [a E].
    destruct j; try (rewrite E; exists (Some a); reflexivity). exists None. reflexivity.
Qed.
Lemma all_some_iff {A B} (f : A -> option B) l : (exists r, all_some f l = Some r) <-> Forall (fun x => exists y, f x = Some y) l.
Proof.
  induction l as [|x l IH]; cbn.
  - split; [constructor | eexists; reflexivity].
  - rewrite Forall_cons_iff, <- IH. split.
    + intros [r E]. destruct (f x) as [y|]; [|discriminate]. destruct (all_some f l) as [ys|]; [|discriminate]. eauto.
    + intros [[y ->] [ys ->]]. eexists. reflexivity.
Qed.
Lemma accepts_list {A} (c : codec A) s : accepts c s -> accepts (c_list c) (SList s).
Proof.
  intros H []; try none. cbn. rewrite all_some_iff. split.
  - intros F. constructor. eapply Forall_impl; [|exact F]. intros x. apply H.
  - intros K. inversion K as [| | | | | | | | |? ? F| | | | | | | |]; subst. eapply Forall_impl; [|exact F]. intros x. apply H.
Qed.
Lemma mapped {A B} (f : A -> B) (o : option A) : (exists b, option_map f o = Some b) <-> exists a, o = Some a.
Proof. destruct o; cbn; split; intros [? E]; try discriminate; eauto. Qed.
Lemma accepts_map {A} (c : codec A) s : accepts c s -> accepts (c_map c) (SMap s).
Proof.
  intros H []; try none. cbn. rewrite mapped, all_some_iff. split.
  - intros F. constructor. eapply Forall_impl; [|exact F]. intros [k j] X. apply mapped in X. apply H, X.
  - intros K. inversion K as [| | | | | | | | | |? ? F| | | | | | |]; subst. eapply Forall_impl; [|exact F]. intros [k j] X. apply mapped. apply H, X.
Qed.
Lemma key_iff k : (exists n, key_of nm k = Some n) <-> exists z, read_int nm k = Some z /\ (0 <= z < 2 ^ 64)%Z.
Proof.
  unfold key_of. split.
  - intros [n E]. destruct (read_int nm k) as [z|]; [|discriminate]. exists z. split; [reflexivity|]. cbn [bind] in E.
    destruct ((0 <=? z)%Z && (z <=? Z.of_N u64_max)%Z) eqn:B; [|discriminate E]. unfold u64_max in B. lia.
  - intros [z [-> B]]. cbn [bind]. destruct ((0 <=? z)%Z && (z <=? Z.of_N u64_max)%Z) eqn:X; [eauto|]. unfold u64_max in X. lia.
Qed.
Lemma accepts_id_map {A} (c : codec A) s : accepts c s -> accepts (c_id_map nm c) (SIds s).
Proof.
  intros H []; try none. cbn. rewrite mapped, all_some_iff.
  assert (E : forall e : text * json, (exists y, (let '(k, j) := e in bind (key_of nm k) (fun k => option_map (pair k) (dec c j))) = Some y) <->
    ((exists z, read_int nm (fst e) = Some z /\ (0 <= z < 2 ^ 64)%Z) /\ conforms nm s (snd e))).
  { intros [k j]. cbn [fst snd]. rewrite <- key_iff, <- (H j). destruct (key_of nm k) as [n|]; cbn; [rewrite mapped|]; split.
    - intros X. split; [eauto | exact X].
    - tauto.
    - intros [? X]. discriminate.
    - intros [[? X] _]. discriminate. }
  split.
  - intros F. constructor. eapply Forall_impl; [|exact F]. intros e. apply E.
  - intros K. inversion K as [| | | | | | | | | | |? ? F| | | | | |]; subst. eapply Forall_impl; [|exact F]. intros e. apply E.
Qed.
Lemma accepts_set : accepts c_set (SList SText).
Proof. apply accepts_iso, accepts_list, accepts_text. Qed.
Lemma accepts_multi {A} (c : codec A) s : accepts c s -> accepts (c_multi c) (SMap (SList s)).
Proof. intros H. apply accepts_map, accepts_list, H. Qed.

(** ** Tuples *)
Definition taccepts {A} (t : tcodec A) (ss : list schema) : Prop := forall l, (exists a, tdec t l = Some a) <-> Forall2 (conforms nm) ss l.
Lemma taccepts_nil : taccepts tnil [].
Proof. intros []; cbn; split; intros H; [constructor | eauto | destruct H; discriminate | inversion H]. Qed.
Lemma both {A B C} (x : option A) (y : option B) (f : A -> B -> C) :
  (exists c, bind x (fun a => bind y (fun b => Some (f a b))) = Some c) <-> (exists a, x = Some a) /\ exists b, y = Some b.
Proof. destruct x, y; cbn; split; intros H; try (destruct H as [? H]; discriminate); try (destruct H as [[? H] [? H']]; discriminate); eauto. Qed.
Lemma taccepts_cons {A B} (c : codec A) (t : tcodec B) s ss : accepts c s -> taccepts t ss -> taccepts (tcons c t) (s :: ss).
Proof.
  intros H K [|j l]; cbn.
  - split; [intros [? E]; discriminate | intros E; inversion E].
  - rewrite both, (H j), (K l). split; [intros []; constructor; assumption | intros E; inversion E; auto].
Qed.
Lemma accepts_tuple {A} (t : tcodec A) ss : taccepts t ss -> accepts (c_tuple t) (STuple ss).
Proof. intros H []; try none. cbn. rewrite (H l). split; [constructor; assumption | intros K; inversion K; assumption]. Qed.
Lemma accepts_pair {A B} (c : codec A) (d : codec B) s s' : accepts c s -> accepts d s' -> accepts (c_pair c d) (STuple [s; s']).
Proof. intros H K. apply accepts_iso, accepts_tuple, taccepts_cons; [exact H|]. apply taccepts_cons; [exact K | apply taccepts_nil]. Qed.

(** ** Structs *)
Definition given (o : list (text * json)) (e : string * presence * schema) : Prop :=
  let '(k, p, s) := e in (p <> Required /\ ~ In (s2t k) (map fst o)) \/ exists v, once k v o /\ conforms nm s v.
Definition faccepts {A} (f : fcodec A) (fs : list (string * presence * schema)) : Prop :=
  (forall o, (exists a, fobj f o = Some a) <-> Forall (given o) fs) /\ (forall l, (exists a, farr f l = Some a) <-> elements nm fs l).
Lemma faccepts_nil : faccepts fnil [].
Proof.
  split; [intros o; cbn; split; [constructor | eauto]|]. intros [|j l]; cbn; split; intros H; [constructor | eauto | destruct H; discriminate | inversion H].
Qed.
Lemma values_nil k o : values k o = [] <-> ~ In k (map fst o).
Proof.
  unfold values. induction o as [|[k' v] o IH]; cbn; [tauto|]. destruct (eqb k' k) eqn:E; cbn.
  - apply (eqb_true k' k) in E. subst. split; [discriminate | tauto].
  - rewrite IH. assert (k' <> k) by (intros ->; rewrite (proj2 (eqb_true k k) eq_refl) in E; discriminate). tauto.
Qed.
Lemma values_app k o p : values k (o ++ p) = values k o ++ values k p.
Proof. unfold values. rewrite filter_app, map_app. reflexivity. Qed.
Lemma values_one k v o : values (s2t k) o = [v] <-> once k v o.
Proof.
  split.
  - induction o as [|[k' w] o IH]; [discriminate|]. unfold values. cbn. destruct (eqb k' (s2t k)) eqn:E; cbn.
    + intros X. injection X as -> X. apply (eqb_true k' (s2t k)) in E. subst. exists [], o. split; [reflexivity|]. apply values_nil, X.
    + intros X. destruct (IH X) as [l [l' [-> N]]]. exists ((k', w) :: l), l'. split; [reflexivity|]. cbn. intros [->|I]; [|exact (N I)].
      rewrite (proj2 (eqb_true (s2t k) (s2t k)) eq_refl) in E. discriminate.
  - intros [l [l' [-> N]]]. change ((s2t k, v) :: l') with ([(s2t k, v)] ++ l'). rewrite !values_app. rewrite map_app, in_app_iff in N.
    rewrite (proj2 (values_nil _ l)) by tauto. rewrite (proj2 (values_nil _ l')) by tauto. unfold values. cbn.
    rewrite (proj2 (eqb_true (s2t k) (s2t k)) eq_refl). reflexivity.
Qed.
Lemma faccepts_cons {A B} k p (io ia : option A) (c : codec A) (f : fcodec B) s fs :
  match p with Required => io = None | _ => io <> None end -> match p with Defaulted => ia <> None | _ => ia = None end ->
  accepts c s -> faccepts f fs -> faccepts (fcons k io ia c f) ((k, p, s) :: fs).
Proof.
  intros IO IA H [O L]. split.
  - intros o. cbn. rewrite both, Forall_cons_iff, (O o). apply and_iff_compat_r. unfold given. rewrite <- values_nil.
    assert (V : (exists v, once k v o /\ conforms nm s v) <-> exists v, values (s2t k) o = [v] /\ conforms nm s v).
    { split; intros [v [E C]]; exists v; (split; [apply values_one, E | exact C]). }
    rewrite V. destruct (values (s2t k) o) as [|v [|w l]].
    + split.
      * intros [a E]. left. split; [|reflexivity]. intros ->. congruence.
      * intros [[N _]|[v [E _]]]; [|discriminate]. destruct p; [contradiction| |]; destruct io; [eauto|contradiction|eauto|contradiction].
    + rewrite (H v). split; [intros C; right; eauto | intros [[_ E]|[x [E C]]]; [discriminate | injection E as ->; exact C]].
    + split; [intros [? E]; discriminate | intros [[_ E]|[x [E C]]]; discriminate].
  - intros [|j l]; cbn; rewrite both.
    + rewrite (L []). split.
      * intros [[a E] K]. destruct p; try congruence. apply ElAbsent, K.
      * intros K. inversion K; subst. split; [destruct ia; [eauto | contradiction] | assumption].
    + rewrite (H j), (L l). split; [intros []; constructor; assumption | intros K; inversion K; auto].
Qed.
Lemma accepts_field {A B} k (c : codec A) (f : fcodec B) s fs : accepts c s -> faccepts f fs -> faccepts (field k c f) ((k, Required, s) :: fs).
Proof. apply faccepts_cons; reflexivity. Qed.
Lemma accepts_field_option {A B} k (c : codec A) (f : fcodec B) s fs :
  accepts c s -> faccepts f fs -> faccepts (field_option k c f) ((k, Optional, SOption s) :: fs).
Proof. intros H. apply faccepts_cons; [discriminate | reflexivity | apply accepts_option, H]. Qed.
Lemma accepts_field_default {A B} k d (c : codec A) (f : fcodec B) s fs :
  accepts c s -> faccepts f fs -> faccepts (field_default k d c f) ((k, Defaulted, s) :: fs).
Proof. apply faccepts_cons; discriminate. Qed.
Lemma accepts_struct {A} (f : fcodec A) fs : faccepts f fs -> accepts (c_struct f) (SStruct fs).
Proof.
  intros [O L] []; try none; cbn.
  - rewrite (L l). split; [constructor; assumption | intros K; inversion K; assumption].
  - rewrite (O l), Forall_forall. split.
    + intros H. constructor. intros k p s I. exact (H _ I).
    + intros K. inversion K; subst. intros [[k p] s] I. apply H1, I.
Qed.
Lemma faccepts_same {A} ks (c : codec A) s : accepts c s -> faccepts (same_fields ks c) (map (fun k => req k s) ks).
Proof.
  intros H. induction ks as [|k ks IH].
  - split; [intros o; cbn; split; [constructor | eauto]|]. intros [|j l]; cbn; split; intros K; [constructor | eauto | destruct K; discriminate | inversion K].
  - destruct (accepts_field k c _ s _ H IH) as [O L]. split.
    + intros o. rewrite <- (O o). cbn [same_fields fobj]. apply mapped.
    + intros l. rewrite <- (L l). cbn [same_fields farr]. apply mapped.
Qed.

(** ** Enums *)
Definition eaccepts {A} (e : ecodec A) (vs : list (string * option schema)) : Prop :=
  (forall t, (exists a, estr e t = Some a) <-> exists k, t = s2t k /\ In (k, None) vs) /\
  (forall t j, (exists a, eobj e t j = Some a) <->
     exists k, t = s2t k /\ ((In (k, None) vs /\ j = JNull) \/ exists s, In (k, Some s) vs /\ conforms nm s j)).
Lemma eaccepts_nil : eaccepts enil [].
Proof. split; intros; cbn; split; [intros [? E]; discriminate | firstorder | intros [? E]; discriminate | firstorder]. Qed.
Lemma accepts_enum {A} (e : ecodec A) vs : eaccepts e vs -> accepts (c_enum e) (SEnum vs).
Proof.
  intros [T O] []; try none; cbn.
  - rewrite T. split; [intros [k [-> I]]; constructor; exact I | intros K; inversion K; subst; eauto].
  - destruct l as [|[k v] [|e' l]].
    + split; [intros [? E]; discriminate | intros K; inversion K].
    + rewrite O. split.
      * intros [k' [-> [[I ->]|[s [I C]]]]]; [apply CfNameNull, I | apply (CfVariant nm k' s v vs I C)].
      * intros K. inversion K; subst; eauto 8.
    + split; [intros [? E]; discriminate | intros K; inversion K].
Qed.
Lemma fresh_name k (vs : list (string * option schema)) x : existsb (eqb (s2t k)) (map (fun e => s2t (fst e)) vs) = false -> ~ In (k, x) vs.
Proof.
  intros H I. assert (E : existsb (eqb (s2t k)) (map (fun e => s2t (fst e)) vs) = true); [|congruence].
  apply existsb_exists. exists (s2t k). split; [apply in_map_iff; exists (k, x); auto | apply (eqb_true (s2t k) (s2t k)); reflexivity].
Qed.
Lemma fresh_text k k' (vs : list (string * option schema)) x : existsb (eqb (s2t k)) (map (fun e => s2t (fst e)) vs) = false -> s2t k = s2t k' -> ~ In (k', x) vs.
Proof. intros H E I. rewrite E in H. exact (fresh_name _ _ _ H I). Qed.
Lemma eaccepts_variant0 {B} k (e : ecodec B) vs : eaccepts e vs -> existsb (eqb (s2t k)) (map (fun e => s2t (fst e)) vs) = false ->
  eaccepts (variant0 k e) ((k, None) :: vs).
Proof.
  intros [T O] F. split.
  - intros t. cbn. destruct (eq_dec t (s2t k)) as [->|N].
    + split; [intros _; exists k; auto | eauto].
    + rewrite mapped, T. split; [intros [k' [-> I]]; exists k'; auto | intros [k' [-> [E|I]]]; [congruence | eauto]].
  - intros t j. cbn. destruct (eq_dec t (s2t k)) as [->|N].
    + split.
      * intros [a E]. exists k. split; [reflexivity|]. left. split; [left; reflexivity|]. destruct j; [reflexivity|discriminate..].
      * intros [k' [E [[_ ->]|[s [[X|I] C]]]]]; [eauto | discriminate |]. destruct (fresh_text _ _ _ _ F E I).
    + rewrite mapped, O. split.
      * intros [k' [-> [[I ->]|[s [I C]]]]]; exists k'; (split; [reflexivity|]); [left | right; exists s]; auto.
      * intros [k' [-> [[[E|I] ->]|[s [[E|I] C]]]]]; [congruence | | discriminate |]; exists k'; (split; [reflexivity|]); [left | right; exists s]; auto.
Qed.
Lemma eaccepts_variant {A B} k (c : codec A) (e : ecodec B) s vs : accepts c s -> eaccepts e vs ->
  existsb (eqb (s2t k)) (map (fun e => s2t (fst e)) vs) = false -> eaccepts (variant k c e) ((k, Some s) :: vs).
Proof.
  intros H [T O] F. split.
  - intros t. cbn. destruct (eq_dec t (s2t k)) as [->|N].
    + split; [intros [? E]; discriminate|]. intros [k' [E [X|I]]]; [discriminate|]. destruct (fresh_text _ _ _ _ F E I).
    + rewrite mapped, T. split; [intros [k' [-> I]]; exists k'; auto | intros [k' [-> [E|I]]]; [congruence | eauto]].
  - intros t j. cbn. destruct (eq_dec t (s2t k)) as [->|N].
    + rewrite mapped, (H j). split.
      * intros C. exists k. split; [reflexivity|]. right. exists s. auto.
      * intros [k' [E [[[X|I] ->]|[s' [[X|I] C]]]]]; [discriminate | destruct (fresh_text _ _ _ _ F E I) | congruence | destruct (fresh_text _ _ _ _ F E I)].
    + rewrite mapped, O. split.
      * intros [k' [-> [[I ->]|[s' [I C]]]]]; exists k'; (split; [reflexivity|]); [left | right; exists s']; auto.
      * intros [k' [-> [[[E|I] ->]|[s' [[E|I] C]]]]]; [discriminate | | congruence |]; exists k'; (split; [reflexivity|]); [left | right; exists s']; auto.
Qed.
(** ** The types of an adaptation *)
Lemma accepts_colour : accepts c_colour SColour.
Proof.
  intros []; try none. cbn. split.
  - intros [c E]. apply visit_str_spec in E. constructor. destruct E as [r1 [r2 [g1 [g2 [b1 [b2 [v1 [v2 [v3 [v4 [v5 [v6 [-> [H1 [H2 [H3 [H4 [H5 [H6 _]]]]]]]]]]]]]]]]]]].
    exists [r1; r2; g1; g2; b1; b2]. split; [reflexivity|]. split; [reflexivity|]. cbn. intros x I. repeat destruct I as [<-|I]; eauto. destruct I.
  - intros H. inversion H as [| | | | | |? [ds [-> [L X]]]| | | | | | | | | | |]; subst.
    destruct ds as [|r1 [|r2 [|g1 [|g2 [|b1 [|b2 [|]]]]]]]; try discriminate L.
    destruct (X r1) as [v1 H1]; [cbn; tauto|]. destruct (X r2) as [v2 H2]; [cbn; tauto|]. destruct (X g1) as [v3 H3]; [cbn; tauto|].
    destruct (X g2) as [v4 H4]; [cbn; tauto|]. destruct (X b1) as [v5 H5]; [cbn; tauto|]. destruct (X b2) as [v6 H6]; [cbn; tauto|].
    eexists. apply visit_str_spec. exists r1, r2, g1, g2, b1, b2, v1, v2, v3, v4, v5, v6. repeat split; assumption.
Qed.

Create HintDb acc.
Hint Extern 1 (accepts c_text _) => apply accepts_text : acc.
Hint Extern 1 (accepts c_bool _) => apply accepts_bool : acc.
Hint Extern 1 (accepts c_unit _) => apply accepts_unit : acc.
Hint Extern 1 (accepts c_set _) => apply accepts_set : acc.
Hint Extern 1 (accepts c_colour _) => apply accepts_colour : acc.
Hint Extern 1 (accepts (c_f64 _) _) => apply accepts_f64 : acc.
Hint Extern 1 (accepts (c_f32 _) _) => apply accepts_f32 : acc.
Hint Extern 1 (accepts (c_usize _) _) => apply accepts_usize : acc.
Hint Extern 1 (accepts (c_uint _ _) _) => apply accepts_uint : acc.
Hint Extern 1 (accepts (c_int _ _ _) _) => apply accepts_int : acc.
Hint Extern 2 (accepts (iso _ _ _) _) => apply accepts_iso : acc.
Hint Extern 2 (accepts (c_list _) _) => apply accepts_list : acc.
Hint Extern 2 (accepts (c_map _) _) => apply accepts_map : acc.
Hint Extern 2 (accepts (c_multi _) _) => apply accepts_multi : acc.
Hint Extern 2 (accepts (c_id_map _ _) _) => apply accepts_id_map : acc.
Hint Extern 2 (accepts (c_option _) _) => apply accepts_option : acc.
Hint Extern 2 (accepts (c_pair _ _) _) => apply accepts_pair : acc.
Hint Extern 2 (accepts (c_tuple _) _) => apply accepts_tuple : acc.
Hint Extern 2 (taccepts (tcons _ _) _) => apply taccepts_cons : acc.
Hint Extern 2 (taccepts tnil _) => apply taccepts_nil : acc.
Hint Extern 2 (accepts (c_struct _) _) => apply accepts_struct : acc.
Hint Extern 2 (faccepts fnil _) => apply faccepts_nil : acc.
Hint Extern 2 (faccepts (field _ _ _) _) => apply accepts_field : acc.
Hint Extern 2 (faccepts (field_option _ _ _) _) => apply accepts_field_option : acc.
Hint Extern 2 (faccepts (field_default _ _ _ _) _) => apply accepts_field_default : acc.
Hint Extern 2 (faccepts (same_fields _ _) _) => apply faccepts_same : acc.
Hint Extern 2 (accepts (c_enum _) _) => apply accepts_enum : acc.
Hint Extern 2 (eaccepts enil _) => apply eaccepts_nil : acc.
Hint Extern 2 (eaccepts (variant0 _ _) _) => apply eaccepts_variant0 : acc.
Hint Extern 2 (eaccepts (variant _ _ _) _) => apply eaccepts_variant : acc.
Hint Extern 1 (existsb _ _ = false) => vm_compute; reflexivity : acc.
Ltac accept := unfold names, req, opt; cbn [map app]; solve [eauto 100 with acc].

Lemma accepts_path : accepts c_path SText. Proof. unfold c_path. accept. Qed.
Hint Resolve accepts_path : acc.
Lemma accepts_point : accepts (c_point nm) s_point. Proof. unfold c_point, s_point. accept. Qed.
Hint Extern 1 (accepts (c_point nm) _) => apply accepts_point : acc.
Lemma accepts_lines : accepts (c_lines nm) s_lines. Proof. unfold c_lines, s_lines. accept. Qed.
Hint Extern 1 (accepts (c_lines nm) _) => apply accepts_lines : acc.
Lemma accepts_polygon : accepts (c_polygon nm) s_polygon. Proof. unfold c_polygon, s_polygon. accept. Qed.
Hint Extern 1 (accepts (c_polygon nm) _) => apply accepts_polygon : acc.
Lemma accepts_xy : accepts (c_xy nm) s_xy. Proof. unfold c_xy, s_xy. accept. Qed.
Hint Extern 1 (accepts (c_xy nm) _) => apply accepts_xy : acc.
Lemma accepts_fix : accepts (c_fix nm) s_fix. Proof. unfold c_fix, s_fix. accept. Qed.
Hint Extern 1 (accepts (c_fix nm) _) => apply accepts_fix : acc.
Lemma accepts_nav : accepts (c_nav nm) s_nav. Proof. unfold c_nav, s_nav. accept. Qed.
Hint Extern 1 (accepts (c_nav nm) _) => apply accepts_nav : acc.
Lemma accepts_runway : accepts (c_runway nm) s_runway. Proof. unfold c_runway, s_runway. accept. Qed.
Hint Extern 1 (accepts (c_runway nm) _) => apply accepts_runway : acc.
Lemma accepts_airport : accepts (c_airport nm) s_airport. Proof. unfold c_airport, s_airport. accept. Qed.
Hint Extern 1 (accepts (c_airport nm) _) => apply accepts_airport : acc.
Lemma accepts_procedure : accepts (c_procedure nm) s_procedure. Proof. unfold c_procedure, s_procedure. accept. Qed.
Hint Extern 1 (accepts (c_procedure nm) _) => apply accepts_procedure : acc.
Hint Extern 1 (accepts c_airway_type _) => unfold c_airway_type : acc.
Lemma accepts_edge : accepts (c_edge nm) s_edge. Proof. unfold c_edge, s_edge. accept. Qed.
Hint Extern 1 (accepts (c_edge nm) _) => apply accepts_edge : acc.
Hint Extern 1 (accepts (c_gfix nm) _) => unfold c_gfix : acc.
Lemma accepts_graph : accepts (c_graph nm) s_graph. Proof. unfold c_graph, s_graph. accept. Qed.
Hint Extern 1 (accepts (c_graph nm) _) => apply accepts_graph : acc.
Lemma accepts_locations : accepts (c_locations nm) s_locations. Proof. unfold c_locations, s_locations. accept. Qed.
Hint Extern 1 (accepts (c_locations nm) _) => apply accepts_locations : acc.
Lemma accepts_position : accepts (c_position nm) s_position. Proof. unfold c_position, s_position. accept. Qed.
Hint Extern 1 (accepts (c_position nm) _) => apply accepts_position : acc.
Lemma accepts_volume : accepts (c_volume nm) s_volume. Proof. unfold c_volume, s_volume. accept. Qed.
Hint Extern 1 (accepts (c_volume nm) _) => apply accepts_volume : acc.
Lemma accepts_runway_pair : accepts c_runway_pair s_runway_id. Proof. unfold c_runway_pair, s_runway_id. accept. Qed.
Hint Extern 1 (accepts c_runway_pair _) => apply accepts_runway_pair : acc.
Lemma accepts_sector : accepts c_sector s_sector. Proof. unfold c_sector, s_sector. accept. Qed.
Hint Extern 1 (accepts c_sector _) => apply accepts_sector : acc.
Lemma accepts_timing : accepts (c_timing nm) s_timing. Proof. unfold c_timing, s_timing. accept. Qed.
Hint Extern 1 (accepts (c_timing nm) _) => apply accepts_timing : acc.
Lemma accepts_constraint : accepts (c_constraint nm) s_constraint. Proof. unfold c_constraint, s_constraint. accept. Qed.
Hint Extern 1 (accepts (c_constraint nm) _) => apply accepts_constraint : acc.
Hint Extern 1 (accepts c_horizontal _) => unfold c_horizontal : acc.
Hint Extern 1 (accepts c_vertical _) => unfold c_vertical : acc.
Lemma accepts_alignment : accepts c_alignment s_alignment. Proof. unfold c_alignment, s_alignment. accept. Qed.
Hint Extern 1 (accepts c_alignment _) => apply accepts_alignment : acc.
Hint Extern 1 (accepts (c_dash nm) _) => unfold c_dash : acc.
Lemma accepts_line_style : accepts (c_line_style nm) s_style. Proof. unfold c_line_style, s_style. accept. Qed.
Hint Extern 1 (accepts (c_line_style nm) _) => apply accepts_line_style : acc.
Lemma accepts_runway_id : accepts c_runway_id s_runway_id. Proof. unfold c_runway_id, s_runway_id. accept. Qed.
Hint Extern 1 (accepts c_runway_id _) => apply accepts_runway_id : acc.
Lemma accepts_active_ids : accepts c_active_ids s_ids. Proof. unfold c_active_ids, s_ids. accept. Qed.
Hint Extern 1 (accepts c_active_ids _) => apply accepts_active_ids : acc.
Hint Extern 1 (accepts c_active_runways _) => unfold c_active_runways : acc.
Hint Extern 1 (accepts c_active_areas _) => unfold c_active_areas : acc.
Hint Extern 1 (accepts c_operator _) => unfold c_operator : acc.
Lemma accepts_active : accepts c_active s_active. Proof. unfold c_active, s_active. accept. Qed.
Hint Extern 1 (accepts c_active _) => apply accepts_active : acc.
Hint Extern 1 (accepts (c_label nm) _) => unfold c_label : acc.
Hint Extern 1 (accepts (c_symbol nm) _) => unfold c_symbol : acc.
Lemma accepts_group : accepts (c_group nm) s_group. Proof. unfold c_group, s_group. accept. Qed.
Hint Extern 1 (accepts (c_group nm) _) => apply accepts_group : acc.
Hint Extern 1 (accepts (c_map_ nm) _) => unfold c_map_ : acc.
Lemma accepts_folder : accepts (c_folder nm) s_folder. Proof. unfold c_folder, s_folder. accept. Qed.
Hint Extern 1 (accepts (c_folder nm) _) => apply accepts_folder : acc.
Lemma accepts_arc : accepts (c_arc nm) s_arc. Proof. unfold c_arc, s_arc. accept. Qed.
Hint Extern 1 (accepts (c_arc nm) _) => apply accepts_arc : acc.
Lemma accepts_elliptic : accepts (c_elliptic nm) s_elliptic. Proof. unfold c_elliptic, s_elliptic. accept. Qed.
Hint Extern 1 (accepts (c_elliptic nm) _) => apply accepts_elliptic : acc.
Lemma accepts_rules : accepts (c_list (c_rule nm)) s_symbol. Proof. unfold c_rule, s_symbol. accept. Qed.
Hint Extern 1 (accepts (c_list (c_rule nm)) _) => apply accepts_rules : acc.
Lemma accepts_symbols : accepts (c_symbols nm) s_symbols. Proof. unfold c_symbols, s_symbols. accept. Qed.
Hint Extern 1 (accepts (c_symbols nm) _) => apply accepts_symbols : acc.
Hint Extern 1 (accepts (c_line_settings nm) _) => unfold c_line_settings : acc.
Hint Extern 1 (accepts (c_label_settings nm) _) => unfold c_label_settings : acc.
Hint Extern 1 (accepts (c_maps_settings nm) _) => unfold c_maps_settings : acc.
Hint Extern 1 (accepts (c_dots nm) _) => unfold c_dots : acc.
Hint Extern 1 (accepts (c_vector nm) _) => unfold c_vector : acc.
Hint Extern 1 (accepts (c_track nm) _) => unfold c_track : acc.
Hint Extern 1 (accepts c_ssr _) => unfold c_ssr : acc.
Hint Extern 1 (accepts (c_coordination nm) _) => unfold c_coordination : acc.
Lemma accepts_settings : accepts (c_settings nm) s_settings. Proof. unfold c_settings, s_settings. accept. Qed.
Hint Extern 1 (accepts (c_settings nm) _) => apply accepts_settings : acc.
Hint Extern 1 (accepts c_wtc _) => unfold c_wtc : acc.
Hint Extern 1 (accepts c_aircraft_type _) => unfold c_aircraft_type : acc.
Hint Extern 1 (accepts c_engine_type _) => unfold c_engine_type : acc.
Lemma accepts_aircraft : accepts (c_aircraft nm) s_aircraft. Proof. unfold c_aircraft, s_aircraft. accept. Qed.
Hint Extern 1 (accepts (c_aircraft nm) _) => apply accepts_aircraft : acc.
Lemma accepts_airline : accepts c_airline s_airline. Proof. unfold c_airline, s_airline. accept. Qed.
Hint Extern 1 (accepts c_airline _) => apply accepts_airline : acc.
Hint Extern 1 (accepts (c_coloured nm) _) => unfold c_coloured : acc.
Hint Extern 1 (accepts (c_location nm) _) => unfold c_location : acc.
Hint Extern 1 (accepts (c_region nm) _) => unfold c_region : acc.
Hint Extern 1 (accepts (c_sct_label nm) _) => unfold c_sct_label : acc.
Lemma accepts_sct_items : accepts (c_sct_items nm) s_sct_items. Proof. unfold c_sct_items, s_sct_items. accept. Qed.
Hint Extern 1 (accepts (c_sct_items nm) _) => apply accepts_sct_items : acc.
Hint Extern 1 (accepts (c_colour_group _ _) _) => unfold c_colour_group : acc.
Lemma accepts_colour_group fields listed : accepts (c_colour_group fields listed) (s_colour_group fields).
Proof. apply accepts_iso, accepts_struct, faccepts_same, accepts_colour. Qed.
Lemma accepts_colours : accepts c_colours s_colours.
Proof.
  unfold c_colours, s_colours. apply accepts_iso, accepts_struct.
  do 4 (apply accepts_field; [apply accepts_colour_group|]). apply accepts_field; [accept | apply faccepts_nil].
Qed.
Hint Extern 1 (accepts c_colours _) => apply accepts_colours : acc.
Lemma accepts_adaptation : accepts (c_adaptation nm) s_adaptation.
Proof.
  unfold c_adaptation, s_adaptation, parts. cbn [map]. apply accepts_iso, accepts_struct.
  repeat (apply accepts_field; [accept|]). apply faccepts_nil.
Qed.
End Accepts.
