(** Proofs about the text of a coordination point. *)
From Coq Require Import Lia ZifyBool ZifyN ZifyNat.
From Verif Require Import Base Num NumProofs Fixed Constraints SctWrite ConstraintShow SpecConstraintShow.
Local Open Scope string_scope.
Local Open Scope list_scope.

Lemma pad_column w s : (List.length s <= w)%nat -> column w s (pad_right w s).
Proof. intros L. unfold pad_right. split; [rewrite app_length, repeat_length; lia | eauto]. Qed.
Lemma pad_length w s : (List.length s <= w)%nat -> List.length (pad_right w s) = w.
Proof. intros L. apply pad_column, L. Qed.
Lemma app_split (a b x y : text) : List.length a = List.length b -> a ++ x = b ++ y -> a = b /\ x = y.
Proof.
  revert b. induction a as [|c a IH]; intros [|d b] L E; try discriminate L; [auto|]. injection E as -> E. injection L as L.
  destruct (IH b L E) as [-> ->]. auto.
Qed.
Lemma spaces_end n : n <> 0%nat -> exists m, repeat 32%N n = repeat 32%N m ++ [32%N].
Proof. destruct n as [|n]; [congruence|]. intros _. exists n. rewrite <- repeat_cons. reflexivity. Qed.
Lemma spaces_unique a b n m : (forall l, a <> l ++ [32%N]) -> (forall l, b <> l ++ [32%N]) -> a ++ repeat 32%N n = b ++ repeat 32%N m -> a = b.
Proof.
  revert m. induction n as [|n IH]; intros m A B E.
  - cbn in E. rewrite app_nil_r in E. destruct m as [|m]; [cbn in E; rewrite app_nil_r in E; exact E|].
    destruct (spaces_end (S m)) as [k K]; [congruence|]. rewrite K, app_assoc in E. contradiction (A _ E).
  - destruct m as [|m].
    + change (repeat 32%N 0) with (@nil N) in E. rewrite app_nil_r in E. destruct (spaces_end (S n)) as [k K]; [congruence|]. rewrite K, app_assoc in E. symmetry in E. contradiction (B _ E).
    + cbn [repeat] in E. rewrite !(repeat_cons _ 32%N), !app_assoc in E. apply app_inj_tail in E. destruct E as [E _]. exact (IH m A B E).
Qed.
Lemma pad_unique w a b x y : fits w a -> fits w b -> pad_right w a ++ x = pad_right w b ++ y -> a = b /\ x = y.
Proof.
  intros [LA A] [LB B] E. apply app_split in E; [|rewrite !pad_length by assumption; reflexivity]. destruct E as [E ->]. split; [|reflexivity].
  unfold pad_right in E. exact (spaces_unique _ _ _ _ A B E).
Qed.
Definition undigit (t : text) : Prop := match t with [] => True | c :: _ => is_digit c = false end.
Lemma digits_unique a b x y : Forall (fun c => is_digit c = true) a -> Forall (fun c => is_digit c = true) b -> undigit x -> undigit y ->
  a ++ x = b ++ y -> a = b /\ x = y.
Proof.
  intros FA. revert b. induction FA as [|c a C _ IH]; intros b FB X Y E.
  - destruct FB as [|d b D FB]; [auto|]. cbn in E. subst x. cbn in X. congruence.
  - destruct FB as [|d b D FB]; [cbn in E; subst y; cbn in Y; congruence|]. cbn in E. injection E as <- E. destruct (IH b FB X Y E) as [-> ->]. auto.
Qed.
Definition levels_text (ls : list N) : text := flat_map (fun l => s2t "  FL" ++ fmt_uint 10 l) ls.
Definition runway_text (o : option text) : text := match o with Some r => s2t "  [" ++ r ++ s2t "]" | None => [] end.
Lemma tail_undigit ls o : undigit (levels_text ls ++ runway_text o).
Proof. destruct ls; [destruct o|]; cbn; reflexivity || exact I. Qed.
Lemma tail_unique ls ls' o o' : levels_text ls ++ runway_text o = levels_text ls' ++ runway_text o' -> ls = ls' /\ o = o'.
Proof.
  revert ls'. induction ls as [|l ls IH]; intros [|l' ls'] E.
  - split; [reflexivity|]. destruct o as [r|], o' as [r'|]; cbn in E; try discriminate E; [|reflexivity]. injection E as E. apply app_inj_tail in E. destruct E as [-> _]. reflexivity.
  - destruct o; discriminate E.
  - destruct o'; discriminate E.
  - cbn [levels_text flat_map] in E. fold (levels_text ls) (levels_text ls') in E. rewrite <- !app_assoc in E. apply app_inv_head in E.
    apply digits_unique in E; [|apply digits0..|apply tail_undigit|apply tail_undigit]. destruct E as [D E].
    apply (f_equal (digits_val 10 0)) in D. rewrite !digits_fmt_uint in D by lia. injection D as ->. destruct (IH ls' E) as [-> ->]. auto.
Qed.
Lemma show_tail c : show_constraint c = pad_right 8 (fix_shown c) ++ [32%N] ++ pad_right 30 (c_exit c) ++ [32%N; 8594%N; 32%N] ++ pad_right 30 (c_entry c) ++
  levels_text (flight_levels c) ++ runway_text (runway_shown c).
Proof.
  unfold show_constraint, fix_shown, flight_levels, runway_shown, levels_text. do 5 f_equal.
  destruct (c_climb c), (c_descent c), (c_dep c); cbn [map flat_map app]; rewrite ?app_nil_r, <- ?app_assoc; reflexivity.
Qed.
