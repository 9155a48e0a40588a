(** Proofs about squawks.json. *)
From Verif Require Import Base Colours SpecColours ColoursProofs Json SpecJson JsonAccepts Squawks SpecSquawks.
Local Open Scope string_scope.
Local Open Scope list_scope.

(** A codec reads exactly what a relation says. *)
Definition reads {A} (c : codec A) (R : A -> json -> Prop) : Prop := forall j a, dec c j = Some a <-> R a j.
Definition freads {A} (f : fcodec A) (RO : A -> list (text * json) -> Prop) (RA : A -> list json -> Prop) : Prop :=
  (forall o a, fobj f o = Some a <-> RO a o) /\ (forall l a, farr f l = Some a <-> RA a l).

Lemma reads_iso {A B} (f : A -> B) (g : B -> A) c R : (forall a, g (f a) = a) -> (forall b, f (g b) = b) -> reads c R -> reads (iso f g c) (fun b => R (g b)).
Proof.
  intros GF FG H j b. cbn. rewrite <- (H j (g b)). destruct (dec c j) as [a|]; cbn; split; intros E; try discriminate E.
  - injection E as <-. rewrite GF. reflexivity.
  - injection E as ->. rewrite FG. reflexivity.
Qed.
Lemma reads_text : reads c_text says_text.
Proof. intros [| | |s| |] a; cbn; unfold says_text; split; intros E; try discriminate E; congruence. Qed.
Lemma reads_colour : reads c_colour says_colour.
Proof.
  intros j a. unfold says_colour. split.
  - destruct j as [| | |s| |]; cbn; intros E; try discriminate E. apply visit_str_spec in E.
    destruct E as [r1 [r2 [g1 [g2 [b1 [b2 [v1 [v2 [v3 [v4 [v5 [v6 [-> H]]]]]]]]]]]]].
    exists r1, r2, g1, g2, b1, b2, v1, v2, v3, v4, v5, v6. split; [reflexivity | exact H].
  - intros [r1 [r2 [g1 [g2 [b1 [b2 [v1 [v2 [v3 [v4 [v5 [v6 [-> H]]]]]]]]]]]]]. cbn [dec c_colour]. apply visit_str_spec.
    exists r1, r2, g1, g2, b1, b2, v1, v2, v3, v4, v5, v6. split; [reflexivity | exact H].
Qed.
Lemma reads_option {A} (c : codec A) R : reads c R -> reads (c_option c) (says_option R).
Proof.
  intros H j a. cbn [c_option dec]. unfold says_option.
  assert (X : j = JNull \/ j <> JNull) by (destruct j; (left; reflexivity) || (right; discriminate)). destruct X as [->|X].
  - destruct a; split; intros E; try discriminate E; [|reflexivity..]. destruct E as [E _]. contradiction E. reflexivity.
  - replace (match j with JNull => Some None | _ => option_map Some (dec c j) end) with (option_map Some (dec c j)) by (destruct j; congruence).
    destruct (dec c j) as [b|] eqn:D; cbn; destruct a as [a|]; split; intros E; try discriminate E; try contradiction.
    + injection E as <-. split; [exact X | apply H, D].
    + destruct E as [_ E]. apply H in E. congruence.
    + destruct E as [_ E]. apply H in E. congruence.
Qed.
Lemma reads_list {A} (c : codec A) R : reads c R -> reads (c_list c) (says_list R).
Proof.
  intros H j l. unfold says_list. cbn. split.
  - destruct j as [| | | |js|]; intros E; try discriminate E. exists js. split; [reflexivity|]. revert l E.
    induction js as [|j js IH]; intros l E; cbn in E; [injection E as <-; constructor|]. destruct (dec c j) as [a|] eqn:D; [|discriminate E]. cbn in E.
    destruct (all_some (dec c) js) as [r|]; [|discriminate E]. cbn in E. injection E as <-. constructor; [apply H, D | apply IH; reflexivity].
  - intros [js [-> F]]. induction F as [|a j l js X _ IH]; [reflexivity|]. cbn. apply H in X. rewrite X, IH. reflexivity.
Qed.
Lemma freads_nil : freads fnil (fun _ _ => True) (fun _ l => l = []).
Proof. split; [intros o []; cbn; tauto|]. intros [|j l] []; cbn; split; congruence. Qed.
Lemma freads_field {A B} k (c : codec A) (f : fcodec B) R RO RA : reads c R -> freads f RO RA ->
  freads (field k c f) (fun p o => member k R (fst p) o /\ RO (snd p) o) (fun p l => exists v l', l = v :: l' /\ R (fst p) v /\ RA (snd p) l').
Proof.
  intros H [FO FA]. split.
  - intros o [a b]. cbn [field fcons fobj fst snd]. split.
    + destruct (values (s2t k) o) as [|v [|w vs]] eqn:V; intros E; try discriminate E. apply values_one in V.
      destruct (dec c v) as [a'|] eqn:D; [|discriminate E]. cbn in E. destruct (fobj f o) as [b'|] eqn:D'; [|discriminate E]. cbn in E. injection E as -> ->.
      split; [exists v; split; [exact V | apply H, D] | apply FO, D'].
    + intros [[v [V X]] Y]. apply values_one in V. apply H in X. apply FO in Y. rewrite V, X. cbn. rewrite Y. reflexivity.
  - intros [|v l] [a b]; cbn [field fcons farr fst snd].
    + split; [discriminate|]. intros [v [l' [E _]]]. discriminate E.
    + split.
      * intros E. destruct (dec c v) as [a'|] eqn:D; [|discriminate E]. cbn in E. destruct (farr f l) as [b'|] eqn:D'; [|discriminate E]. cbn in E. injection E as -> ->.
        exists v, l. split; [reflexivity|]. split; [apply H, D | apply FA, D'].
      * intros [v' [l' [E [X Y]]]]. injection E as <- <-. apply H in X. apply FA in Y. rewrite X. cbn. rewrite Y. reflexivity.
Qed.
Lemma freads_option {A B} k (c : codec A) (f : fcodec B) R RO RA : reads c R -> freads f RO RA ->
  freads (field_option k c f) (fun p o => member_option k R (fst p) o /\ RO (snd p) o) (fun p l => exists v l', l = v :: l' /\ says_option R (fst p) v /\ RA (snd p) l').
Proof.
  intros H0 [FO FA]. pose proof (reads_option c R H0) as H. split.
  - intros o [a b]. cbn [field_option fcons fobj fst snd]. split.
    + destruct (values (s2t k) o) as [|v [|w vs]] eqn:V; intros E; try discriminate E.
      * cbn in E. destruct (fobj f o) as [b'|] eqn:D'; [|discriminate E]. cbn in E. injection E as <- ->.
        split; [right; split; [apply values_nil, V | reflexivity] | apply FO, D'].
      * apply values_one in V. destruct (dec (c_option c) v) as [a'|] eqn:D; [|discriminate E]. cbn [bind] in E.
        destruct (fobj f o) as [b'|] eqn:D'; [|discriminate E]. cbn in E. injection E as -> ->.
        split; [left; exists v; split; [exact V | apply H, D] | apply FO, D'].
    + intros [[[v [V X]]|[V ->]] Y]; apply FO in Y.
      * apply values_one in V. apply H in X. rewrite V, X. cbn. rewrite Y. reflexivity.
      * apply values_nil in V. rewrite V. cbn. rewrite Y. reflexivity.
  - intros [|v l] [a b]; cbn [field_option fcons farr fst snd].
    + split; [discriminate|]. intros [v [l' [E _]]]. discriminate E.
    + split.
      * intros E. destruct (dec (c_option c) v) as [a'|] eqn:D; [|discriminate E]. cbn [bind] in E. destruct (farr f l) as [b'|] eqn:D'; [|discriminate E]. cbn in E. injection E as -> ->.
        exists v, l. split; [reflexivity|]. split; [apply H, D | apply FA, D'].
      * intros [v' [l' [E [X Y]]]]. injection E as <- <-. apply H in X. apply FA in Y. rewrite X. cbn. rewrite Y. reflexivity.
Qed.
Lemma reads_struct {A} (f : fcodec A) RO RA : freads f RO RA -> reads (c_struct f) (fun a j => (exists o, j = JObj o /\ RO a o) \/ (exists l, j = JArr l /\ RA a l)).
Proof.
  intros [FO FA] j a. cbn. split.
  - destruct j as [| | | |l|o]; intros E; try discriminate E; [right; exists l | left; exists o]; (split; [reflexivity|]); [apply FA, E | apply FO, E].
  - intros [[o [-> E]]|[l [-> E]]]; [apply FO, E | apply FA, E].
Qed.
Lemma reads_ext {A} (c : codec A) R R' : reads c R -> (forall a j, R a j <-> R' a j) -> reads c R'.
Proof. intros H E j a. rewrite <- E. apply H. Qed.

Lemma reads_range : reads c_range says_range.
Proof.
  eapply reads_ext.
  - apply reads_iso; [intros [a [b []]]; reflexivity | intros []; reflexivity|]. apply reads_struct, freads_field; [exact reads_text|].
    apply freads_field; [exact reads_text | exact freads_nil].
  - intros [a b] j. cbn [fst snd rg_start rg_end]. unfold says_range. cbn [rg_start rg_end]. split; (intros [H|H]; [left|right]).
    + destruct H as [o [-> [X [Y _]]]]. exists o. auto.
    + destruct H as [l [-> [v [l' [-> [X [w [l2 [-> [Y ->]]]]]]]]]]. exists v, w. auto.
    + destruct H as [o [-> [X Y]]]. exists o. auto.
    + destruct H as [v [w [-> [X Y]]]]. eexists. split; [reflexivity|]. eexists _, _. split; [reflexivity|]. split; [exact X|]. eexists _, _. auto.
Qed.
Lemma reads_def : reads c_def says_def.
Proof.
  eapply reads_ext.
  - apply reads_iso; [intros [c [r [m [k []]]]]; reflexivity | intros []; reflexivity|]. apply reads_struct, freads_option; [exact reads_text|].
    apply freads_option; [exact reads_range|]. apply freads_field; [exact reads_text|]. apply freads_field; [exact reads_colour | exact freads_nil].
  - intros [c r m k] j. unfold says_def. cbn [fst snd sd_code sd_range sd_message sd_colour]. split; (intros [H|H]; [left|right]).
    + destruct H as [o [-> [A [B [C [D _]]]]]]. exists o. auto.
    + destruct H as [l [-> [v1 [l1 [-> [A [v2 [l2 [-> [B [v3 [l3 [-> [C [v4 [l4 [-> [D ->]]]]]]]]]]]]]]]]]]. exists v1, v2, v3, v4. auto.
    + destruct H as [o [-> [A [B [C D]]]]]. exists o. auto 10.
    + destruct H as [v1 [v2 [v3 [v4 [-> [A [B [C D]]]]]]]]. eexists. split; [reflexivity|]. eexists _, _. split; [reflexivity|]. split; [exact A|].
      eexists _, _. split; [reflexivity|]. split; [exact B|]. eexists _, _. split; [reflexivity|]. split; [exact C|]. eexists _, _. auto.
Qed.
Lemma reads_squawks k1 k2 k3 k4 : reads (c_squawks k1 k2 k3 k4) (fun s j =>
  (exists o, j = JObj o /\ member k1 says_colour (sq_colour s) o /\ member k2 says_text (sq_message s) o /\
     member k3 (says_list says_text) (sq_codes s) o /\ member k4 (says_list says_def) (sq_defs s) o) \/
  (exists v1 v2 v3 v4, j = JArr [v1; v2; v3; v4] /\ says_colour (sq_colour s) v1 /\ says_text (sq_message s) v2 /\
     says_list says_text (sq_codes s) v3 /\ says_list says_def (sq_defs s) v4)).
Proof.
  eapply reads_ext.
  - apply reads_iso; [intros [c [r [m [k []]]]]; reflexivity | intros []; reflexivity|]. apply reads_struct, freads_field; [exact reads_colour|].
    apply freads_field; [exact reads_text|]. apply freads_field; [apply reads_list, reads_text|]. apply freads_field; [apply reads_list, reads_def | exact freads_nil].
  - intros [c r m k] j. cbn [fst snd sq_colour sq_message sq_codes sq_defs]. split; (intros [H|H]; [left|right]).
    + destruct H as [o [-> [A [B [C [D _]]]]]]. exists o. auto.
    + destruct H as [l [-> [v1 [l1 [-> [A [v2 [l2 [-> [B [v3 [l3 [-> [C [v4 [l4 [-> [D ->]]]]]]]]]]]]]]]]]]. exists v1, v2, v3, v4. auto.
    + destruct H as [o [-> [A [B [C D]]]]]. exists o. auto 10.
    + destruct H as [v1 [v2 [v3 [v4 [-> [A [B [C D]]]]]]]]. eexists. split; [reflexivity|]. eexists _, _. split; [reflexivity|]. split; [exact A|].
      eexists _, _. split; [reflexivity|]. split; [exact B|]. eexists _, _. split; [reflexivity|]. split; [exact C|]. eexists _, _. auto.
Qed.
