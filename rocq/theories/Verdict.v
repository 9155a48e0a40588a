(** Functions that return exactly if a condition holds and panic otherwise. *)
From Verif Require Import Base Peg Trees.

Definition verdict {A} (P : Prop) (x : outcome A) (R : A -> Prop) : Prop := (P /\ exists v, x = Ret v /\ R v) \/ (~ P /\ x = Panic).
Lemma verdict_ret {A} (P : Prop) (v : A) (R : A -> Prop) : P -> R v -> verdict P (Ret v) R.
Proof. intros. left. eauto. Qed.
Lemma verdict_bind {A B} (P Q : Prop) (x : outcome A) (f : A -> outcome B) R R' :
  verdict P x R -> (forall v, x = Ret v -> R v -> verdict Q (f v) R') -> verdict (P /\ Q) (do v <- x; f v) R'.
Proof.
  intros [[HP [v [-> HR]]]|[HP ->]] H; walk.
  - destruct (H v eq_refl HR) as [[HQ [w [-> HW]]]|[HQ ->]]; [left|right]; split; try tauto; eauto.
  - right. split; [tauto | reflexivity].
Qed.
Lemma verdict_iff {A} (P P' : Prop) (x : outcome A) R : verdict P x R -> (P <-> P') -> verdict P' x R.
Proof. intros [[H X]|[H X]] E; [left|right]; split; tauto. Qed.
Lemma verdict_mono {A} (P : Prop) (x : outcome A) (R R' : A -> Prop) : verdict P x R -> (forall v, P -> R v -> R' v) -> verdict P x R'.
Proof. intros [[H [v [X Y]]]|[H X]] E; [left|right]; split; eauto. Qed.
Lemma verdict_unwrap {A} (o : option A) : verdict (exists v, o = Some v) (unwrap o) (fun v => o = Some v).
Proof.
  destruct o as [v|]; [left|right]; split; [exists v; reflexivity | exists v; split; reflexivity | intros [w X]; discriminate X | reflexivity].
Qed.
Lemma verdict_omap {A B} (P : A -> Prop) (f : A -> outcome B) (R : A -> B -> Prop) l :
  Forall (fun x => verdict (P x) (f x) (R x)) l -> verdict (Forall P l) (omap f l) (Forall2 R l).
Proof.
  induction 1 as [|x l V _ IH]; [apply verdict_ret; constructor|]. cbn [omap]. eapply verdict_iff.
  - eapply verdict_bind; [exact V|]. intros y _ Y. eapply (verdict_bind _ True); [exact IH|]. intros ys _ YS. apply verdict_ret; [exact I | constructor; assumption].
  - rewrite Forall_cons_iff. tauto.
Qed.
