(** Proofs about maps filled from pairs. *)
From Verif Require Import Base Peg SpecKeyed.
Local Open Scope list_scope.

Definition given {A} (l : list (option A)) : list A := flat_map (fun o => match o with Some x => [x] | None => [] end) l.
Lemma get_rev_nodup {K V} `{EqDec K} k (m : list (K * V)) : NoDup (keys m) -> get k (rev m) = get k m.
Proof.
  induction m as [|[x v] m IH]; intros N; [reflexivity|]. apply NoDup_cons_iff in N. destruct N as [N N']. cbn [rev]. rewrite get_app, IH by exact N'. cbn [get].
  destruct (eq_dec k x) as [->|_]; [|destruct (get k m); reflexivity]. destruct (get x m) eqn:E; [|reflexivity]. contradiction N. apply get_Some_key in E. exact E.
Qed.
Lemma last_keyed_cons {K} (key : tree -> K -> Prop) p ps id q : last_keyed key ps id q -> last_keyed key (p :: ps) id q.
Proof. intros [b [a [-> X]]]. exists (p :: b), a. auto. Qed.
Section keyed.
  Context {K V : Type} `{EqDec K} (key : tree -> K -> Prop) (R : tree -> V -> Prop).
  Definition entry (p : tree) (o : option (K * V)) : Prop :=
    match o with Some (k, v) => (forall id, key p id <-> id = k) /\ R p v | None => forall id, ~ key p id end.
  Lemma given_holds ps os : Forall2 entry ps os -> holds key ps R (put_all (given os) []).
  Proof.
    intros F id. rewrite get_put_all. cbn [get].
    assert (G : match get id (rev (given os)) with Some x => exists p, last_keyed key ps id p /\ R p x | None => Forall (fun q => ~ key q id) ps end).
    { induction F as [|p o ps os E F IH]; [constructor|]. cbn [given flat_map]. rewrite rev_app_distr, get_app. fold (given os). destruct (get id (rev (given os))) as [x|].
      - destruct IH as [q [L Q]]. exists q. split; [apply last_keyed_cons; exact L | exact Q].
      - destruct o as [[k v]|]; cbn [entry rev app get] in *; [|constructor; [apply E | exact IH]]. destruct E as [E X]. destruct (eq_dec id k) as [->|N].
        + exists p. split; [|exact X]. exists [], ps. split; [reflexivity|]. split; [apply E; reflexivity | exact IH].
        + constructor; [rewrite E; exact N | exact IH]. }
    destruct (get id (rev (given os))); exact G.
  Qed.
  (** a second map put on top of a first *)
  Lemma extend_holds ps1 ps2 m1 m2 : NoDup (keys m2) -> holds key ps1 R m1 -> holds key ps2 R m2 -> holds key (ps1 ++ ps2) R (put_all m2 m1).
  Proof.
    intros N H1 H2 id. rewrite get_put_all, get_rev_nodup by exact N. specialize (H1 id). specialize (H2 id). destruct (get id m2) as [x|].
    - destruct H2 as [p [[b [a [-> X]]] Q]]. exists p. split; [|exact Q]. exists (ps1 ++ b), a. rewrite <- app_assoc. auto.
    - destruct (get id m1) as [x|].
      + destruct H1 as [p [[b [a [-> [X Y]]]] Q]]. exists p. split; [|exact Q]. exists b, (a ++ ps2). rewrite <- app_assoc. split; [reflexivity|]. split; [exact X|]. apply Forall_app. auto.
      + apply Forall_app. auto.
  Qed.
End keyed.
