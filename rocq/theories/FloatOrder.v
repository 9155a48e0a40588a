(** [SFleb]/[SFltb] are a total preorder on the floats that are not NaN. *)
From Coq Require Import ZifyBool.
From Verif Require Import Base Float.

Definition key3 (x : spec_float) : Z * Z * Z :=
  match x with
  | S754_infinity true => (-2, 0, 0)
  | S754_finite true m e => (-1, - e, Z.neg m)
  | S754_zero _ => (0, 0, 0)
  | S754_finite false m e => (1, e, Z.pos m)
  | S754_infinity false => (2, 0, 0)
  | S754_nan => (0, 0, 0)
  end%Z.

Definition le3 (a b : Z * Z * Z) : Prop :=
  let '(a1, a2, a3) := a in let '(b1, b2, b3) := b in
  (a1 < b1 \/ a1 = b1 /\ (a2 < b2 \/ a2 = b2 /\ a3 <= b3))%Z.

Lemma le3_trans a b c : le3 a b -> le3 b c -> le3 a c.
Proof. destruct a as [[? ?] ?], b as [[? ?] ?], c as [[? ?] ?]. unfold le3. lia. Qed.
Lemma le3_total a b : le3 a b \/ le3 b a.
Proof. destruct a as [[? ?] ?], b as [[? ?] ?]. unfold le3. lia. Qed.
Lemma le3_refl a : le3 a a.
Proof. destruct a as [[? ?] ?]. unfold le3. lia. Qed.

Lemma SFleb_spec x y :
  SFleb x y = true <-> x <> S754_nan /\ y <> S754_nan /\ le3 (key3 x) (key3 y).
Proof.
  destruct x as [sx|sx| |sx mx ex], y as [sy|sy| |sy my ey];
    unfold SFleb, SFcompare, key3, le3; try destruct sx; try destruct sy;
    try (split; [intros _; split; [discriminate | split; [discriminate | lia]] | reflexivity]);
    try (split; [discriminate | intros [A [B C]]; first [congruence | lia]]).
  - destruct (Z.compare_spec ex ey).
    + fold (Pos.compare mx my). destruct (Pos.compare_spec mx my); cbn [CompOpp];
        (split; [first [discriminate | intros _; split; [discriminate | split; [discriminate | lia]]]
                | intros [_ [_ C]]; first [reflexivity | exfalso; lia]]).
    + split; [discriminate | intros [_ [_ C]]; exfalso; lia].
    + split; [intros _; split; [discriminate | split; [discriminate | lia]] | reflexivity].
  - destruct (Z.compare_spec ex ey).
    + fold (Pos.compare mx my). destruct (Pos.compare_spec mx my); cbn [CompOpp];
        (split; [first [discriminate | intros _; split; [discriminate | split; [discriminate | lia]]]
                | intros [_ [_ C]]; first [reflexivity | exfalso; lia]]).
    + split; [intros _; split; [discriminate | split; [discriminate | lia]] | reflexivity].
    + split; [discriminate | intros [_ [_ C]]; exfalso; lia].
Qed.

Lemma SFcompare_nan x y : SFcompare x y = None <-> x = S754_nan \/ y = S754_nan.
Proof.
  destruct x as [sx|sx| |sx mx ex], y as [sy|sy| |sy my ey]; unfold SFcompare;
    try destruct sx; try destruct sy;
    try (split; [discriminate | intros [A|A]; discriminate]);
    try (split; [intros _; tauto | reflexivity]).
  all: destruct (ex ?= ey)%Z; split; try discriminate; intros [A|A]; discriminate.
Qed.

Lemma SFcompare_swap x y :
  SFcompare y x = match SFcompare x y with Some c => Some (CompOpp c) | None => None end.
Proof.
  destruct x as [sx|sx| |sx mx ex], y as [sy|sy| |sy my ey]; unfold SFcompare;
    try destruct sx; try destruct sy; try reflexivity.
  all: rewrite (Z.compare_antisym ex ey); destruct (ex ?= ey)%Z; cbn [CompOpp]; try reflexivity;
    fold (Pos.compare mx my) (Pos.compare my mx); rewrite (Pos.compare_antisym mx my);
    destruct (mx ?= my)%positive; reflexivity.
Qed.

Lemma SFltb_spec x y : x <> S754_nan -> y <> S754_nan -> SFltb x y = negb (SFleb y x).
Proof.
  intros A B. unfold SFltb, SFleb. rewrite (SFcompare_swap x y).
  destruct (SFcompare x y) as [[]|] eqn:E; try reflexivity.
  apply SFcompare_nan in E. tauto.
Qed.

Lemma SFltb_nan x y : SFltb x y = true -> x <> S754_nan /\ y <> S754_nan.
Proof.
  unfold SFltb. intros H. destruct (SFcompare x y) eqn:E; [|discriminate].
  split; intros ->.
  - cbn in E. discriminate.
  - destruct x; cbn in E; try discriminate; destruct s; discriminate.
Qed.

Lemma SFleb_trans x y z : SFleb x y = true -> SFleb y z = true -> SFleb x z = true.
Proof.
  rewrite !SFleb_spec. intros [A [B C]] [D [E F]]. split; [exact A|]. split; [exact E|].
  eapply le3_trans; eassumption.
Qed.

Lemma SFleb_refl x : x <> S754_nan -> SFleb x x = true.
Proof. rewrite SFleb_spec. intros N. auto using le3_refl. Qed.

Lemma SFleb_total x y : x <> S754_nan -> y <> S754_nan -> SFleb x y = true \/ SFleb y x = true.
Proof. rewrite !SFleb_spec. intros A B. destruct (le3_total (key3 x) (key3 y)); tauto. Qed.

Lemma SFltb_le x y : SFltb x y = true -> SFleb x y = true.
Proof. unfold SFltb, SFleb. destruct (SFcompare x y) as [[]|]; congruence. Qed.

Lemma SFltb_false x y : x <> S754_nan -> y <> S754_nan -> SFltb x y = false -> SFleb y x = true.
Proof. intros A B E. rewrite SFltb_spec in E by assumption. destruct (SFleb y x); [reflexivity | discriminate]. Qed.
