(** Proofs about constraints. *)
From Verif Require Import Base Constraints SpecConstraints.

Lemma key_eq c : key c = key_text c.
Proof. unfold key, key_text, key_fields, opt_star, star. cbn [joined]. reflexivity. Qed.

Lemma partition_filter {A} (p : A -> bool) l : partition p l = (filter p l, filter (fun x => negb (p x)) l).
Proof. induction l as [|x l IH]; cbn; [reflexivity|]. rewrite IH. destruct (p x); reflexivity. Qed.

Lemma filter_filter {A} (p q : A -> bool) l : filter p (filter q l) = filter (fun x => q x && p x) l.
Proof. induction l as [|x l IH]; cbn; [reflexivity|]. destruct (q x); cbn; rewrite IH; reflexivity. Qed.

Lemma last_keyed (p : constraint -> bool) (P : constraint -> Prop) l :
  (forall c, p c = true <-> P c) -> forall k c,
  get k (of_list (map (fun c => (key c, c)) (filter p l))) = Some c <-> last_with P k l c.
Proof.
  intros PP k c. rewrite get_of_list. revert c.
  induction l as [|x l IH] using rev_ind; intros c.
  - cbn. split; [discriminate|]. intros [pre [post [E _]]]. destruct pre; discriminate.
  - rewrite filter_app, map_app, rev_app_distr. cbn [filter].
    destruct (p x) eqn:E.
    + cbn [map rev app get]. apply PP in E. destruct (eq_dec k (key x)) as [->|ne].
      * split.
        -- intros X; injection X as <-. exists l, []. repeat split; auto.
        -- intros [pre [post [E2 [Pc [K N]]]]]. destruct post as [|y post] using rev_ind.
           ++ apply app_inj_tail in E2. destruct E2 as [_ ->]. reflexivity.
           ++ rewrite app_comm_cons, app_assoc in E2. apply app_inj_tail in E2. destruct E2 as [_ ->].
              exfalso. apply (N y); [apply in_app_iff; right; left; reflexivity | exact E | symmetry; apply key_eq].
      * rewrite IH. split.
        -- intros [pre [post [-> [Pc [K N]]]]]. exists pre, (post ++ [x]). rewrite <- app_assoc. cbn [app].
           split; [reflexivity|]. split; [exact Pc|]. split; [exact K|]. intros c' I. apply in_app_iff in I. destruct I as [I|[<-|[]]]; [auto|].
           intros _ X. apply ne. rewrite <- X. symmetry; apply key_eq.
        -- intros [pre [post [E2 [Pc [K N]]]]]. destruct post as [|y post _] using rev_ind.
           ++ apply app_inj_tail in E2. destruct E2 as [_ ->]. exfalso. apply ne. rewrite <- K. symmetry; apply key_eq.
           ++ rewrite app_comm_cons, app_assoc in E2. apply app_inj_tail in E2. destruct E2 as [-> ->].
              exists pre, post. split; [reflexivity|]. split; [exact Pc|]. split; [exact K|]. intros c' I. apply N. apply in_app_iff; auto.
    + cbn [map rev app]. rewrite IH. split.
      * intros [pre [post [-> [Pc [K N]]]]]. exists pre, (post ++ [x]). rewrite <- app_assoc. cbn [app].
        split; [reflexivity|]. split; [exact Pc|]. split; [exact K|]. intros c' I. apply in_app_iff in I. destruct I as [I|[<-|[]]]; [auto|].
        intros Px. apply PP in Px. congruence.
      * intros [pre [post [E2 [Pc [K N]]]]]. destruct post as [|y post _] using rev_ind.
        -- apply app_inj_tail in E2. destruct E2 as [_ ->]. apply PP in Pc. congruence.
        -- rewrite app_comm_cons, app_assoc in E2. apply app_inj_tail in E2. destruct E2 as [-> ->].
           exists pre, post. split; [reflexivity|]. split; [exact Pc|]. split; [exact K|]. intros c' I. apply N. apply in_app_iff; auto.
Qed.

Lemma extract_departure l k c : get k (fst (extract_constraints l)) = Some c <-> last_with departure k l c.
Proof.
  unfold extract_constraints. rewrite partition_filter. cbn [fst]. rewrite filter_filter. apply last_keyed.
  intros x. unfold departure. destruct (c_climb x); cbn; [|rewrite andb_false_r]; split; congruence.
Qed.
Lemma extract_destination l k c : get k (snd (extract_constraints l)) = Some c <-> last_with destination k l c.
Proof.
  unfold extract_constraints. rewrite partition_filter. cbn [snd]. rewrite filter_filter. apply last_keyed.
  intros x. unfold destination. destruct (c_climb x), (c_descent x); cbn; intuition congruence.
Qed.

Lemma app_sep_inj (sep : N) a b a' b' : ~ In sep a -> ~ In sep a' ->
  a ++ [sep] ++ b = a' ++ [sep] ++ b' -> a = a' /\ b = b'.
Proof.
  revert a'. induction a as [|x a IH]; intros [|x' a'] N N' E; cbn in E.
  - injection E as ->. auto.
  - injection E as -> _. exfalso. apply N'. left. reflexivity.
  - injection E as -> _. exfalso. apply N. left. reflexivity.
  - injection E as -> E. destruct (IH a') as [-> ->]; auto.
    + intros I; apply N; right; exact I.
    + intros I; apply N'; right; exact I.
Qed.

Lemma joined_inj sep l : forall l', List.length l = List.length l' ->
  Forall (fun f => ~ In sep f) l -> Forall (fun f => ~ In sep f) l' -> joined sep l = joined sep l' -> l = l'.
Proof.
  induction l as [|x l IH]; intros [|x' l'] L F F' E; try discriminate; [reflexivity|].
  inversion F; inversion F'; subst. injection L as L.
  destruct l as [|y l], l' as [|y' l']; try discriminate.
  - cbn in E. congruence.
  - cbn [joined] in E. apply app_sep_inj in E; auto. destruct E as [-> E]. f_equal. apply IH; auto.
Qed.

Lemma key_iff c c' : no_hash c -> no_hash c' -> key c = key c' <-> key_fields c = key_fields c'.
Proof.
  intros H H'. rewrite (key_eq c), (key_eq c'). unfold key_text. split; [|intros ->; reflexivity].
  apply joined_inj; auto.
Qed.
