(** Reading what was written, with members of objects in any order: lemmas for the combinators of Json.v. *)
From Coq Require Import ZifyBool ZifyN ZifyNat.
From Verif Require Import Base Num NumProofs Float Colours ColoursProofs Adaptation Json SpecJson.

Section Proofs.
Context (nm : numerals) (FN : faithful nm).

Notation same := (same_number nm).
Definition member (R : text -> text -> Prop) (e e' : text * json) : Prop := fst e = fst e' /\ alike R (snd e) (snd e').

(** [rt]: what is written is read; [st]: also if it is restated; [nn]: it is not null *)
Definition rt {A} (c : codec A) (P : A -> Prop) := forall a, P a -> dec c (enc c a) = Some a.
Definition st {A} (c : codec A) (P : A -> Prop) :=
  forall a j, P a -> alike same (enc c a) j -> exists a', dec c j = Some a' /\ P a' /\ alike eq (enc c a) (enc c a').
Definition nn {A} (c : codec A) (P : A -> Prop) := forall a, P a -> enc c a <> JNull.
Definition good {A} (c : codec A) (P : A -> Prop) := rt c P /\ st c P.

Lemma good_iff {A} (c : codec A) (P Q : A -> Prop) : good c P -> (forall a, P a <-> Q a) -> good c Q.
Proof.
  intros [R S] W. split; [intros a H; apply R, W, H|]. intros a j H K. destruct (S a j (proj2 (W a) H) K) as [a' [D [H' L]]].
  exists a'. rewrite <- W. auto.
Qed.
Lemma good_iso {A B} (f : A -> B) (g : B -> A) (c : codec A) (P : A -> Prop) :
  good c P -> (forall b, P (g b) -> f (g b) = b) -> (forall a, P a -> g (f a) = a) -> good (iso f g c) (fun b => P (g b)).
Proof.
  intros [R S] E F. split.
  - intros b H. cbn. rewrite (R _ H). cbn. rewrite (E _ H). reflexivity.
  - intros b j H K. destruct (S _ _ H K) as [a [D [H' L]]]. exists (f a). cbn. rewrite D, (F _ H'). auto.
Qed.
Lemma good_iso_on {A B} (f : A -> B) (g : B -> A) (c : codec A) (P : A -> Prop) (Q : B -> Prop) :
  good c P -> (forall b, Q b -> P (g b) /\ f (g b) = b) -> (forall a, P a -> Q (f a) /\ g (f a) = a) -> good (iso f g c) Q.
Proof.
  intros [R S] E F. split.
  - intros b H. destruct (E b H) as [H' Eb]. cbn. rewrite (R _ H'). cbn. rewrite Eb. reflexivity.
  - intros b j H K. destruct (E b H) as [Hb Eb]. destruct (S _ _ Hb K) as [a [D [H' L]]]. destruct (F a H') as [Fa Ea].
    exists (f a). cbn. rewrite D, Ea. auto.
Qed.
Lemma nn_iso {A B} (f : A -> B) (g : B -> A) (c : codec A) (P : A -> Prop) : nn c P -> nn (iso f g c) (fun b => P (g b)).
Proof. intros N b H. apply N, H. Qed.
Lemma nn_weaken {A} (c : codec A) (P Q : A -> Prop) : nn c P -> (forall a, Q a -> P a) -> nn c Q.
Proof. intros N W a H. apply N, W, H. Qed.

(** ** Primitive types *)
Lemma good_text : good c_text (fun _ => True).
Proof. split; [intros a _; reflexivity|]. intros a j _ H. inversion H; subst. exists a. repeat split; constructor. Qed.
Lemma good_bool : good c_bool (fun _ => True).
Proof. split; [intros a _; reflexivity|]. intros a j _ H. inversion H; subst. exists a. repeat split; constructor. Qed.
Lemma good_unit : good c_unit (fun _ => True).
Proof. split; [intros []; reflexivity|]. intros a j _ H. inversion H; subst. exists tt. repeat split; constructor. Qed.
Lemma good_int lo hi : (- 2 ^ 63 <= lo)%Z -> (hi < 2 ^ 64)%Z -> good (c_int nm lo hi) (fun z => lo <= z <= hi)%Z.
Proof.
  intros L U. destruct FN as [_ [_ FI]]. split.
  - intros z H. cbn. rewrite FI by lia. cbn. destruct (_ && _)%bool eqn:E; [reflexivity | lia].
  - intros z j H K. inversion K as [| |n n' [_ [_ S]]| | |]; subst. exists z. cbn. rewrite (S z) by (apply FI; lia). cbn.
    destruct (_ && _)%bool eqn:E; [|lia]. repeat split; [lia | lia | constructor; reflexivity].
Qed.
Lemma good_uint max : (max <= u64_max)%N -> good (c_uint nm max) (fun n => n <= max)%N.
Proof.
  intros M. unfold u64_max in M. eapply good_iff; [apply good_iso; [apply good_int; lia | cbn; lia | cbn; lia] | cbn; lia].
Qed.
Lemma good_usize : good (c_usize nm) usize_ok.
Proof.
  eapply good_iff; [apply good_iso; [apply good_uint; unfold u64_max; lia | lia | lia] |]. intros n. unfold usize_ok, u64_max. lia.
Qed.
Lemma finite_number p e x : number p e x -> finite x = true.
Proof. intros [_ N]. destruct x; first [reflexivity | contradiction]. Qed.
Lemma good_f64 : good (c_f64 nm) is64.
Proof.
  destruct FN as [F _]. split.
  - intros x H. cbn. rewrite (finite_number _ _ _ H). apply F, H.
  - intros x j H K. cbn in K. rewrite (finite_number _ _ _ H) in K. inversion K as [| |n n' [S _]| | |]; subst. exists x. cbn.
    rewrite (finite_number _ _ _ H). repeat split; [apply S, F, H | apply H | apply H | constructor; reflexivity].
Qed.
Lemma good_f32 : good (c_f32 nm) is32.
Proof.
  destruct FN as [_ [F _]]. split.
  - intros x H. cbn. rewrite (finite_number _ _ _ H). apply F, H.
  - intros x j H K. cbn in K. rewrite (finite_number _ _ _ H) in K. inversion K as [| |n n' [_ [S _]]| | |]; subst. exists x. cbn.
    rewrite (finite_number _ _ _ H). repeat split; [apply S, F, H | apply H | apply H | constructor; reflexivity].
Qed.
Lemma nn_f32 : nn (c_f32 nm) is32.
Proof. intros x H. cbn. rewrite (finite_number _ _ _ H). discriminate. Qed.
Lemma good_colour : good c_colour colour_ok.
Proof.
  assert (V : forall c, colour_ok c -> visit_str (serialize_colour c) = Some c).
  { intros [r g b a] [W E]. cbn [ca] in E. subst. rewrite (visit_serialize _ W). reflexivity. }
  split; [exact V|]. intros c j H K. inversion K; subst. exists c. repeat split; [apply V, H | apply H | apply H | apply H | apply H | apply H | constructor].
Qed.

(** ** Containers *)
Lemma alike_null R j : alike R j JNull -> j = JNull.
Proof. intros H. inversion H. reflexivity. Qed.
Lemma good_option {A} (c : codec A) P : good c P -> nn c P -> good (c_option c) (when P).
Proof.
  intros [R S] N. split.
  - intros [a|] H; [|reflexivity]. cbn. rewrite (R _ H). specialize (N _ H). destruct (enc c a); [congruence | reflexivity..].
  - intros [a|] j H K; cbn in K.
    + destruct (S _ _ H K) as [a' [D [H' L]]]. exists (Some a'). cbn. rewrite D. split; [|split; [exact H' | exact L]].
      destruct j; [|reflexivity..]. apply alike_null in K. destruct (N _ H K).
    + inversion K; subst. exists None. repeat split. constructor.
Qed.
Lemma all_some_map {A} (c : codec A) P l : rt c P -> Forall P l -> all_some (dec c) (map (enc c) l) = Some l.
Proof. intros R. induction 1 as [|a l H F IH]; [reflexivity|]. cbn. rewrite (R _ H). cbn. rewrite IH. reflexivity. Qed.
Lemma all_some_alike {A} (c : codec A) P l : st c P -> Forall P l -> forall js, Forall2 (alike same) (map (enc c) l) js ->
  exists l', all_some (dec c) js = Some l' /\ Forall P l' /\ Forall2 (alike eq) (map (enc c) l) (map (enc c) l').
Proof.
  intros S. induction 1 as [|a l H F IH]; intros js K; inversion K; subst.
  - exists []. repeat split; constructor.
  - match goal with E : alike _ _ _ |- _ => destruct (S _ _ H E) as [a' [D [H' L]]] end.
    match goal with E : Forall2 _ _ _ |- _ => destruct (IH _ E) as [l1 [D1 [H1 L1]]] end.
    exists (a' :: l1). cbn. rewrite D. cbn. rewrite D1. repeat split; constructor; assumption.
Qed.
Lemma good_list {A} (c : codec A) P : good c P -> good (c_list c) (Forall P).
Proof.
  intros [R S]. split.
  - intros l H. apply (all_some_map c P); assumption.
  - intros l j H K. cbn in K. inversion K; subst. match goal with E : Forall2 _ _ _ |- _ => destruct (all_some_alike c P _ S H _ E) as [l1 [D [HL L]]] end.
    exists l1. cbn. repeat split; [exact D | exact HL | constructor; exact L].
Qed.
Lemma nn_list {A} (c : codec A) P : nn (c_list c) P.
Proof. intros l _. discriminate. Qed.
Lemma nn_text P : nn c_text P.
Proof. intros l _. discriminate. Qed.

(** Maps *)
Lemma put_absent {K V} `{EqDec K} (k : K) (v : V) m : ~ In k (map fst m) -> put k v m = m ++ [(k, v)].
Proof.
  induction m as [|[k' v'] m IH]; cbn; intros N; [reflexivity|]. destruct (eq_dec k k') as [->|]; [destruct N; left; reflexivity|].
  rewrite IH by tauto. reflexivity.
Qed.
Lemma of_list_nodup {K V} `{EqDec K} (m : list (K * V)) : NoDup (map fst m) -> of_list m = m.
Proof.
  intros N. unfold of_list, put_all. enough (G : forall m1, NoDup (map fst (m1 ++ m)) -> fold_left (fun m kv => put (fst kv) (snd kv) m) m m1 = m1 ++ m) by (apply (G []); exact N).
  clear N. induction m as [|[k v] m IH]; intros m1 N; cbn; [rewrite app_nil_r; reflexivity|]. rewrite put_absent.
  - rewrite IH; rewrite <- app_assoc; [reflexivity | exact N].
  - rewrite map_app in N. cbn in N. apply NoDup_remove_2 in N. rewrite in_app_iff in N. tauto.
Qed.
Definition wr {K A} (key : K -> text) (c : codec A) (e : K * A) : text * json := (key (fst e), enc c (snd e)).
Definition rd {K A} (unkey : text -> option K) (c : codec A) (e : text * json) : option (K * A) :=
  bind (unkey (fst e)) (fun k => option_map (pair k) (dec c (snd e))).
Lemma all_some_rd {K A} (key : K -> text) unkey (c : codec A) P m : rt c P -> (forall k a, In (k, a) m -> unkey (key k) = Some k /\ P a) ->
  all_some (rd unkey c) (map (wr key c) m) = Some m.
Proof.
  intros R. induction m as [|[k a] m IH]; intros H; [reflexivity|]. destruct (H k a (or_introl eq_refl)) as [U Pa]. cbn. unfold rd at 1. cbn.
  rewrite U. cbn. rewrite (R _ Pa). cbn. rewrite IH; [reflexivity|]. intros k' a' I. apply H. right. exact I.
Qed.
Lemma all_some_members {K A} (key : K -> text) unkey (c : codec A) P m : st c P -> (forall k a, In (k, a) m -> unkey (key k) = Some k /\ P a) ->
  forall o, Forall2 (member same) (map (wr key c) m) o ->
  exists m', all_some (rd unkey c) o = Some m' /\ map fst m' = map fst m /\ (forall k a, In (k, a) m' -> P a) /\
    Forall2 (member eq) (map (wr key c) m) (map (wr key c) m').
Proof.
  intros S. induction m as [|[k a] m IH]; intros H o F; inversion F as [|? [k1 j] ? ? [E L] F']; subst.
  - exists []. repeat split; try constructor. intros k a [].
  - destruct (H k a (or_introl eq_refl)) as [U Pa]. cbn in E, L. subst. destruct (S _ _ Pa L) as [a' [D [Pa' La]]].
    destruct (IH (fun k' a' I => H k' a' (or_intror I)) _ F') as [m' [Dm [Km [Pm Lm]]]].
    exists ((k, a') :: m'). cbn. unfold rd at 1. cbn. rewrite U. cbn. rewrite D. cbn. rewrite Dm. cbn. rewrite Km.
    repeat split; [|constructor; [split; [reflexivity | exact La] | exact Lm]].
    intros k2 a2 [I|I]; [injection I as <- <-; exact Pa' | exact (Pm _ _ I)].
Qed.
Definition gen_map {K A} `{EqDec K} (key : K -> text) (unkey : text -> option K) (c : codec A) : codec (list (K * A)) :=
  mkCodec (fun m => JObj (map (wr key c) m)) (fun j => match j with JObj o => option_map of_list (all_some (rd unkey c) o) | _ => None end).
Lemma good_gen_map {K A} `{EqDec K} (key : K -> text) unkey (c : codec A) P (Q : K -> Prop) :
  good c P -> (forall k, Q k -> unkey (key k) = Some k) -> good (gen_map key unkey c) (fun m => entries P m /\ Forall Q (map fst m)).
Proof.
  intros [R S] U.
  assert (V : forall m, entries P m /\ Forall Q (map fst m) -> forall k a, In (k, a) m -> unkey (key k) = Some k /\ P a).
  { intros m [[N E] F] k a I. split; [|exact (E _ _ I)]. apply U. rewrite Forall_forall in F. apply F. exact (in_map fst _ _ I). }
  split.
  - intros m H1. cbn. rewrite (all_some_rd key unkey c P m R (V m H1)). cbn. rewrite of_list_nodup; [reflexivity | apply H1].
  - intros m j H1 L. cbn in L. inversion L as [| | | | |o p o' PE F]; subst. apply Permutation_sym, Permutation_map_inv in PE. destruct PE as [m1 [-> PM]].
    assert (E1 : entries P m1 /\ Forall Q (map fst m1)).
    { destruct H1 as [[N E] F']. repeat split.
      - eapply Permutation_NoDup; [apply Permutation_map, PM | exact N].
      - intros k a I. apply (E k). apply (Permutation_in _ (Permutation_sym PM) I).
      - eapply Permutation_Forall; [apply Permutation_map, PM | exact F']. }
    destruct (all_some_members key unkey c P m1 S (V _ E1) _ F) as [m' [D [K' [P' L']]]].
    exists m'. cbn. rewrite D. cbn. rewrite of_list_nodup by (rewrite K'; apply E1). repeat split.
    + rewrite K'. apply E1.
    + exact P'.
    + rewrite K'. apply E1.
    + apply (AlObj eq _ (map (wr key c) m1)); [apply Permutation_map, PM | exact L'].
Qed.
Lemma all_some_ext {A B} (f g : A -> option B) l : (forall x, f x = g x) -> all_some f l = all_some g l.
Proof. intros E. induction l as [|x l IH]; cbn; [reflexivity|]. rewrite E, IH. reflexivity. Qed.
Lemma good_ext {A} (c d : codec A) P : (forall a, enc c a = enc d a) -> (forall j, dec c j = dec d j) -> good c P -> good d P.
Proof.
  intros E D [R S]. split; [intros a H; rewrite <- E, <- D; apply R, H|]. intros a j H K. rewrite <- E in K.
  destruct (S _ _ H K) as [a' X]. exists a'. rewrite <- D, <- !E. exact X.
Qed.
Lemma good_map {A} (c : codec A) P : good c P -> good (c_map c) (entries P).
Proof.
  intros G. apply (good_ext (gen_map (fun k => k) Some c)).
  - intros m. cbn. f_equal. apply map_ext. intros [k a]. reflexivity.
  - intros []; cbn; try reflexivity. f_equal. apply all_some_ext. intros [k j]. reflexivity.
  - eapply good_iff; [apply (good_gen_map _ _ c P (fun _ => True) G); reflexivity|].
    intros m. split; [intros [H _]; exact H | intros H; split; [exact H|]]. apply Forall_forall. auto.
Qed.
Lemma good_multi {A} (c : codec A) P : good c P -> good (c_multi c) (multi P).
Proof. intros G. apply good_map, good_list, G. Qed.
Lemma good_id_map {A} (c : codec A) P : good c P -> good (c_id_map nm c) (fun m => entries P m /\ Forall usize_ok (map fst m)).
Proof.
  intros G. apply (good_ext (gen_map (fun k => fmt_int (Z.of_nat k)) (key_of nm) c)).
  - intros m. cbn. f_equal. apply map_ext. intros [k a]. reflexivity.
  - intros []; cbn; try reflexivity. f_equal. apply all_some_ext. intros [k j]. reflexivity.
  - apply good_gen_map; [exact G|]. intros k U. destruct FN as [_ [_ FI]]. unfold key_of, usize_ok in *. rewrite FI by lia. cbn.
    unfold u64_max. destruct (_ && _)%bool eqn:E; [f_equal; lia | lia].
Qed.
(** Sets *)
Lemma existsb_eqb s (l : list text) : existsb (eqb s) l = true <-> In s l.
Proof. rewrite existsb_exists. split; [intros [x [I E]]; apply (eqb_true s x) in E; subst; exact I | intros I; exists s; split; [exact I | apply eqb_refl]]. Qed.
Lemma insert_all l : NoDup l -> fold_left (fun l s => insert s l) l [] = l.
Proof.
  intros N. enough (G : forall l1, NoDup (l1 ++ l) -> fold_left (fun l s => insert s l) l l1 = l1 ++ l) by (apply (G []); exact N).
  clear N. induction l as [|s l IH]; intros l1 N; cbn; [rewrite app_nil_r; reflexivity|]. unfold insert at 2.
  destruct (existsb (eqb s) l1) eqn:E; [apply existsb_eqb in E; apply NoDup_remove_2 in N; rewrite in_app_iff in N; tauto|].
  rewrite IH; rewrite <- app_assoc; [reflexivity | exact N].
Qed.
Lemma map_str_inj l l' : Forall2 (alike same) (map JStr l) l' -> l' = map JStr l.
Proof. revert l'. induction l as [|s l IH]; intros l' H; inversion H; subst; [reflexivity|]. cbn. f_equal; [|apply IH; assumption]. match goal with E : alike _ _ _ |- _ => inversion E end. reflexivity. Qed.
Lemma good_set : good c_set (fun l => NoDup l).
Proof.
  destruct (good_list c_text _ good_text) as [R S].
  assert (T : forall l : list text, Forall (fun _ => True) l) by (intros l; apply Forall_forall; auto). split.
  - intros l N. unfold c_set, iso. cbn [enc dec]. rewrite (R l (T l)). cbn. rewrite (insert_all l N). reflexivity.
  - intros l j N K. assert (E : j = JArr (map JStr l)) by (cbn in K; inversion K; subst; f_equal; apply map_str_inj; assumption). subst.
    exists l. split; [|split; [exact N|]].
    + unfold c_set, iso. cbn [enc dec]. specialize (R l (T l)). cbn in R |- *. rewrite R. cbn. rewrite (insert_all l N). reflexivity.
    + constructor. clear. induction l; cbn; constructor; [constructor | assumption].
Qed.

(** ** Tuples *)
Definition tgood {A} (t : tcodec A) (P : A -> Prop) :=
  (forall a, P a -> tdec t (tenc t a) = Some a) /\
  (forall a l, P a -> Forall2 (alike same) (tenc t a) l -> exists a', tdec t l = Some a' /\ P a' /\ Forall2 (alike eq) (tenc t a) (tenc t a')).
Lemma tgood_nil : tgood tnil (fun _ => True).
Proof. split; [intros []; reflexivity|]. intros [] l _ H. inversion H; subst. exists tt. repeat split; constructor. Qed.
Lemma tgood_cons {A B} (c : codec A) (t : tcodec B) P Q : good c P -> tgood t Q -> tgood (tcons c t) (fun p => P (fst p) /\ Q (snd p)).
Proof.
  intros [R S] [TR TS]. split.
  - intros [a b] [HA HB]. cbn in *. rewrite (R _ HA). cbn. rewrite (TR _ HB). reflexivity.
  - intros [a b] l [HA HB] H. cbn in *. inversion H as [|? j ? l' L F]; subst. destruct (S _ _ HA L) as [a' [D [P' L']]], (TS _ _ HB F) as [b' [D2 [Q' F']]].
    exists (a', b'). cbn. rewrite D. cbn. rewrite D2. repeat split; [exact P' | exact Q' | constructor; assumption].
Qed.
Lemma good_tuple {A} (t : tcodec A) P : tgood t P -> good (c_tuple t) P.
Proof.
  intros [R S]. split; [exact R|]. intros a j H K. cbn in K. inversion K; subst. match goal with E : Forall2 _ _ _ |- _ => destruct (S _ _ H E) as [a' [D [H' L]]] end.
  exists a'. repeat split; [exact D | exact H' | constructor; exact L].
Qed.
Lemma good_pair {A B} (c : codec A) (d : codec B) P Q : good c P -> good d Q -> good (c_pair c d) (fun p => P (fst p) /\ Q (snd p)).
Proof.
  intros G H. eapply good_iff.
  - apply good_iso; [apply good_tuple, tgood_cons; [exact G | apply tgood_cons; [exact H | apply tgood_nil]] | intros [a b] _; reflexivity | intros [a [b []]] _; reflexivity].
  - intros [a b]. cbn. tauto.
Qed.

(** ** Structs *)
Definition fgood {A} (f : fcodec A) (P : A -> Prop) :=
  (forall a o, P a -> (forall k v, In (k, v) (fenc f a) -> values k o = [v]) -> fobj f o = Some a) /\
  (forall a o, P a -> (forall k v, In (k, v) (fenc f a) -> exists v', values k o = [v'] /\ alike same v v') ->
    exists a', fobj f o = Some a' /\ P a' /\ Forall2 (member eq) (fenc f a) (fenc f a')).
Lemma fgood_nil : fgood fnil (fun _ => True).
Proof. split; [intros [] o _ _; reflexivity|]. intros [] o _ _. exists tt. repeat split. constructor. Qed.
Lemma fgood_cons {A B} k io ia (c : codec A) (f : fcodec B) P Q :
  good c P -> fgood f Q -> fgood (fcons k io ia c f) (fun p => P (fst p) /\ Q (snd p)).
Proof.
  intros [R S] [FR FS]. split.
  - intros [a b] o [HA HB] V. cbn in *. rewrite (V (s2t k) (enc c a) (or_introl eq_refl)). rewrite (R _ HA). cbn. rewrite (FR b o HB); [reflexivity|].
    intros k' v I. apply V. right. exact I.
  - intros [a b] o [HA HB] V. cbn in *. destruct (V (s2t k) (enc c a) (or_introl eq_refl)) as [v [-> L]]. destruct (S _ _ HA L) as [a' [-> [P' L']]]. cbn.
    destruct (FS b o HB (fun k' v' I => V k' v' (or_intror I))) as [b' [-> [Q' F]]]. exists (a', b'). cbn.
    repeat split; [exact P' | exact Q' | constructor; [split; [reflexivity | exact L'] | exact F]].
Qed.
Lemma values_absent k o : ~ In k (map fst o) -> values k o = [].
Proof.
  unfold values. intros N. induction o as [|[k' v] o IH]; [reflexivity|]. cbn in *. destruct (eqb k' k) eqn:E; [apply (eqb_true k' k) in E; subst; destruct N; left; reflexivity | apply IH; tauto].
Qed.
Lemma values_nodup k v o : NoDup (map fst o) -> In (k, v) o -> values k o = [v].
Proof.
  unfold values. induction o as [|[k' v'] o IH]; intros N I; [destruct I|]. inversion N; subst. cbn. destruct I as [I|I].
  - injection I as -> ->. rewrite eqb_refl. cbn. f_equal. apply (values_absent k o). assumption.
  - destruct (eqb k' k) eqn:E; [|apply IH; assumption]. apply (eqb_true k' k) in E. subst. destruct H1. exact (in_map fst _ _ I).
Qed.
Lemma forall2_keys R p o : Forall2 (member R) p o -> map fst o = map fst p.
Proof. induction 1 as [|e e' p o [E _] F IH]; [reflexivity|]. cbn. rewrite IH, E. reflexivity. Qed.
Lemma forall2_in {A B} (R : A -> B -> Prop) l l' x : Forall2 R l l' -> In x l -> exists y, In y l' /\ R x y.
Proof. induction 1 as [|a b l l' H F IH]; intros [ ]; [subst; exists b; split; [left; reflexivity | exact H]|]. destruct (IH H0) as [y [I X]]. exists y. split; [right; exact I | exact X]. Qed.
Lemma good_struct {A} (f : fcodec A) (P : A -> Prop) : (forall a, P a -> NoDup (map fst (fenc f a))) -> fgood f P -> good (c_struct f) P.
Proof.
  intros N [R S]. split.
  - intros a H. apply (R a); [exact H|]. intros k v I. apply values_nodup; [apply N, H | exact I].
  - intros a j H K. cbn in K. inversion K as [| | | | |o p o' PE F]; subst.
    destruct (S a o' H) as [a' [D [H' L]]].
    + intros k v I. destruct (forall2_in _ _ _ (k, v) F) as [[k' v'] [I' [E L]]]; [apply (Permutation_in _ PE I)|]. cbn in E, L. subst k'.
      exists v'. split; [|exact L]. apply values_nodup; [|exact I']. rewrite (forall2_keys _ _ _ F). eapply Permutation_NoDup; [apply Permutation_map, PE | apply N, H].
    + exists a'. repeat split; [exact D | exact H'|]. apply (AlObj eq _ (fenc f a)); [apply Permutation_refl | exact L].
Qed.
Lemma nn_struct {A} (f : fcodec A) P : nn (c_struct f) P.
Proof. intros a _. discriminate. Qed.
Lemma good_same_fields {A} ks (c : codec A) P : good c P -> fgood (same_fields ks c) (fun l => map fst l = ks /\ Forall (fun e => P (snd e)) l).
Proof.
  intros G. induction ks as [|k ks IH].
  - split.
    + intros l o [E _] _. destruct l; [reflexivity | discriminate].
    + intros l o [E _] _. exists []. cbn. repeat split; constructor.
  - pose proof (fgood_cons k None None c _ _ _ G IH) as [R S]. change (fcons k None None c (same_fields ks c)) with (field k c (same_fields ks c)) in R, S. split.
    + intros [|[k' a] l] o [E F] V; [discriminate|]. cbn in E. injection E as -> E. apply Forall_cons_iff in F. destruct F as [Fa Fl].
      change (option_map (fun p => (k, fst p) :: snd p) (fobj (field k c (same_fields ks c)) o) = Some ((k, a) :: l)).
      rewrite (R (a, l) o); [reflexivity | split; [assumption | split; [exact E | assumption]] | exact V].
    + intros [|[k' a] l] o [E F] V; [discriminate|]. cbn in E. injection E as -> E. apply Forall_cons_iff in F. destruct F as [Fa Fl].
      destruct (S (a, l) o) as [[a' l'] [D [[Pa [E' F']] L]]]; [split; [assumption | split; [exact E | assumption]] | exact V|].
      exists ((k, a') :: l'). split; [|split; [split|]].
      * change (option_map (fun p => (k, fst p) :: snd p) (fobj (field k c (same_fields ks c)) o) = Some ((k, a') :: l')). rewrite D. reflexivity.
      * cbn in *. rewrite E'. reflexivity.
      * constructor; assumption.
      * exact L.
Qed.
Lemma keys_same_fields {A} ks (c : codec A) l : map fst l = ks -> map fst (fenc (same_fields ks c) l) = map s2t ks.
Proof. revert l. induction ks as [|k ks IH]; intros [|[k' a] l] E; try discriminate; [reflexivity|]. cbn in E. injection E as -> E. cbn. f_equal. apply IH, E. Qed.

(** ** Enums *)
Definition egood {A} (e : ecodec A) (ks : list text) (P : A -> Prop) := forall a, P a ->
  (exists k, In k ks /\ eenc e a = JStr k /\ estr e k = Some a) \/
  (exists k v, In k ks /\ eenc e a = JObj [(k, v)] /\ eobj e k v = Some a /\
    forall v', alike same v v' -> exists a', eobj e k v' = Some a' /\ P a' /\ exists w, eenc e a' = JObj [(k, w)] /\ alike eq v w).
Lemma egood_nil : egood enil [] (fun _ => True).
Proof. intros []. Qed.
Definition either {A B} (P : A -> Prop) (Q : B -> Prop) (x : A + B) : Prop := match x with inl a => P a | inr b => Q b end.
Lemma egood_variant0 {B} k (e : ecodec B) ks Q : ~ In (s2t k) ks -> egood e ks Q -> egood (variant0 k e) (s2t k :: ks) (either (fun _ => True) Q).
Proof.
  intros N G [[]|b] H.
  - left. exists (s2t k). cbn. destruct (eq_dec (s2t k) (s2t k)); [|congruence]. auto.
  - destruct (G b H) as [[k' [I [E D]]]|[k' [v [I [E [D S]]]]]].
    + left. exists k'. cbn. destruct (eq_dec k' (s2t k)) as [->|]; [contradiction|]. rewrite D. auto.
    + right. exists k', v. cbn. destruct (eq_dec k' (s2t k)) as [->|]; [contradiction|]. rewrite D. repeat split; [auto | auto|].
      intros v' L. destruct (S v' L) as [b' [D' [Q' W]]]. exists (inr b'). cbn. rewrite D'. auto.
Qed.
Lemma egood_variant {A B} k (c : codec A) (e : ecodec B) ks P Q :
  ~ In (s2t k) ks -> good c P -> egood e ks Q -> egood (variant k c e) (s2t k :: ks) (either P Q).
Proof.
  intros N [R S] G [a|b] H.
  - right. exists (s2t k), (enc c a). cbn. destruct (eq_dec (s2t k) (s2t k)); [|congruence]. rewrite (R _ H). repeat split; [auto|].
    intros v' L. destruct (S _ _ H L) as [a' [D [P' L']]]. exists (inl a'). cbn. rewrite D. repeat split; [exact P'|]. eauto.
  - destruct (G b H) as [[k' [I [E D]]]|[k' [v [I [E [D S']]]]]].
    + left. exists k'. cbn. destruct (eq_dec k' (s2t k)) as [->|]; [contradiction|]. rewrite D. auto.
    + right. exists k', v. cbn. destruct (eq_dec k' (s2t k)) as [->|]; [contradiction|]. rewrite D. repeat split; [auto | auto|].
      intros v' L. destruct (S' v' L) as [b' [D' [Q' W]]]. exists (inr b'). cbn. rewrite D'. auto.
Qed.
Lemma good_enum {A} (e : ecodec A) ks P : egood e ks P -> good (c_enum e) P.
Proof.
  intros G. split.
  - intros a H. cbn. destruct (G a H) as [[k [_ [-> D]]]|[k [v [_ [-> [D _]]]]]]; exact D.
  - intros a j H K. cbn in *. destruct (G a H) as [[k [_ [E D]]]|[k [v [_ [E [D S]]]]]]; rewrite E in K; inversion K as [| | | | |o p o' PE F]; subst.
    + exists a. rewrite E. repeat split; [exact D | exact H | constructor].
    + apply Permutation_length_1_inv in PE. subst. inversion F as [|? [k' v'] ? ? [E1 L] F']; subst. inversion F'; subst. cbn in E1, L. subst k'.
      destruct (S v' L) as [a' [D' [P' [w [E' L']]]]]. exists a'. rewrite E, E'. repeat split; [exact D' | exact P'|].
      apply (AlObj eq _ [(k, v)]); [apply Permutation_refl | constructor; [split; [reflexivity | exact L'] | constructor]].
Qed.
Lemma nn_enum {A} (e : ecodec A) ks P : egood e ks P -> nn (c_enum e) P.
Proof. intros G a H. cbn. destruct (G a H) as [[k [_ [-> _]]]|[k [v [_ [-> _]]]]]; discriminate. Qed.
End Proofs.
