(** Parsing gives the pairs of the text or an error. *)
From Verif Require Import Base Peg Grammars SpecPeg PegProofs PegLang Trees PegTree SpecPairs.
Local Open Scope string_scope.
Local Open Scope list_scope.

Lemma top_cases i name g start : nth_error formats i = Some (name, g, start) -> (exists e, get start g = Some (KNormal, e)) -> forall t,
  (exists kids, parsed g start t kids /\ top g start t = Ret kids) \/ (unparsed g start t /\ top g start t = Err).
Proof.
  intros I [e G] t. apply nth_error_In in I. pose proof formats_checked as F. rewrite Forall_forall in F. specialize (F _ I). cbn [fst snd] in F.
  pose proof formats_whole as W. rewrite Forall_forall in W. specialize (W _ I). cbn [fst snd] in W.
  destruct (checks_returns g start F t) as [[c [r [k [ts E]]]]|E]; [left|right].
  - pose proof (parse_whole g start t c r k ts W E) as [-> _].
    assert (r = []) as -> by (apply run_splits in E; rewrite <- (app_nil_r t) in E at 1; apply app_inv_head in E; auto).
    assert (M : matches g NonAtomic (Call start) true t [] (Some (t, [], k, ts))).
    { apply (run_sound g (S (List.length g))). unfold parse in E. rewrite E. reflexivity. }
    destruct (call_shape g _ _ _ _ _ _ M _ _ _ _ eq_refl _ _ G ltac:(discriminate) ltac:(left; discriminate)) as [x [-> B]].
    apply call_inv in M as M'. destruct M' as [kd [e' [o [G' [_ X]]]]]. rewrite G in G'. injection G' as <- <-.
    destruct o as [[[[c' r'] k'] ts']|]; [|discriminate X]. cbn [record_kind record] in X. injection X as <- <- <- ->.
    exists ts'. split; [exists k; exact M|]. unfold top, pairs. rewrite E. reflexivity.
  - split; [|unfold top, pairs; rewrite E; reflexivity].
    apply (run_sound g (S (List.length g))). unfold parse in E. rewrite E. reflexivity.
Qed.
Lemma parsed_det g start t kids kids' : parsed g start t kids -> parsed g start t kids' -> kids = kids'.
Proof. intros [k M] [k' M']. pose proof (matches_det _ _ _ _ _ _ _ M _ M') as E. injection E as _ ->. reflexivity. Qed.
Lemma parsed_not g start t kids : parsed g start t kids -> unparsed g start t -> False.
Proof. intros [k M] U. pose proof (matches_det _ _ _ _ _ _ _ M _ U) as E. discriminate E. Qed.
Lemma parsed_born g start t kids : parsed g start t kids -> born g NonAtomic start (T start t kids).
Proof. intros [k M]. split; [reflexivity|]. repeat eexists. exact M. Qed.
Lemma of_rule_app n a b : of_rule n (a ++ b) = of_rule n a ++ of_rule n b.
Proof. induction a as [|t a IH]; [reflexivity|]. cbn [app of_rule]. rewrite IH. destruct (string_dec (rule_of t) n); reflexivity. Qed.
Lemma In_of_rule n ts t : In t (of_rule n ts) <-> In t ts /\ rule_of t = n.
Proof.
  induction ts as [|x ts IH]; cbn [of_rule In]; [tauto|]. destruct (string_dec (rule_of x) n) as [E|E]; cbn [In]; rewrite IH; intuition congruence.
Qed.
Lemma born_rule g a n t : born g a n t -> rule_of t = n.
Proof. intros [R _]. exact R. Qed.
Lemma of_rule_hit n t ts : rule_of t = n -> of_rule n (t :: ts) = t :: of_rule n ts.
Proof. intros E. cbn [of_rule]. destruct (string_dec (rule_of t) n); congruence. Qed.
Lemma of_rule_miss n t ts : rule_of t <> n -> of_rule n (t :: ts) = of_rule n ts.
Proof. intros E. cbn [of_rule]. destruct (string_dec (rule_of t) n); congruence. Qed.
(** evaluates [of_rule] on pairs of known rules *)
Ltac pick := repeat first [rewrite of_rule_hit by first [reflexivity | assumption] | rewrite of_rule_miss by first [discriminate | assumption | match goal with H : rule_of ?t = _ |- rule_of ?t <> _ => rewrite H; discriminate end]];
  cbn [of_rule map text_of].
