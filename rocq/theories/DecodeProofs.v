(** Proofs about decoding. *)
From Coq Require Import ZifyBool ZifyN ZifyNat.
From Verif Require Import Base Decode SpecDecode.
Open Scope N_scope.

Lemma div64 c : c = 64 * (c / 64) + c mod 64 /\ c mod 64 < 64.
Proof. split; [apply N.div_mod' | apply N.mod_lt; lia]. Qed.
Lemma split3 c : exists q m1 m2, c / 4096 = q /\ (c / 64) mod 64 = m1 /\ c mod 64 = m2 /\ c = 4096 * q + 64 * m1 + m2 /\ m1 < 64 /\ m2 < 64.
Proof.
  exists (c / 4096), ((c / 64) mod 64), (c mod 64). destruct (div64 c), (div64 (c / 64)).
  replace (c / 4096) with (c / 64 / 64) by (rewrite N.div_div by lia; reflexivity).
  repeat split; try assumption. lia.
Qed.
Lemma split4 c : exists q m0 m1 m2, c / 262144 = q /\ (c / 4096) mod 64 = m0 /\ (c / 64) mod 64 = m1 /\ c mod 64 = m2 /\
  c = 262144 * q + 4096 * m0 + 64 * m1 + m2 /\ m0 < 64 /\ m1 < 64 /\ m2 < 64.
Proof.
  exists (c / 262144), ((c / 4096) mod 64), ((c / 64) mod 64), (c mod 64). destruct (div64 c), (div64 (c / 64)), (div64 (c / 64 / 64)).
  replace (c / 262144) with (c / 64 / 64 / 64) by (rewrite !N.div_div by lia; reflexivity).
  replace (c / 4096) with (c / 64 / 64) by (rewrite N.div_div by lia; reflexivity).
  repeat split; try assumption. lia.
Qed.

Lemma between_true lo hi x : lo <= x <= hi -> between lo hi x = true.
Proof. unfold between. lia. Qed.
Lemma between_false lo hi x : x < lo \/ hi < x -> between lo hi x = false.
Proof. unfold between. lia. Qed.

Ltac decide_if := match goal with
  | |- context[if ?b then _ else _] =>
      first [ let H := fresh in assert (H : b = true) by (unfold between, cont; lia); rewrite H; clear H
            | let H := fresh in assert (H : b = false) by (unfold between, cont; lia); rewrite H; clear H ]
  end.

Lemma utf8_items_char c r : scalar c -> utf8_items (utf8_char c ++ r) = Some c :: utf8_items r.
Proof.
  intros S. unfold scalar in S. unfold utf8_char. destruct (c <? 128) eqn:E1.
  { cbn [app utf8_items]. rewrite E1. reflexivity. }
  destruct (c <? 2048) eqn:E2.
  { destruct (div64 c). set (q := c / 64) in *. set (m := c mod 64) in *. cbn [app utf8_items].
    do 2 decide_if. unfold cont. rewrite between_true by lia. f_equal. f_equal. lia. }
  destruct (c <? 65536) eqn:E3.
  { destruct (split3 c) as [q [m1 [m2 [-> [-> [-> [E [H1 H2]]]]]]]]. cbn [app utf8_items]. cbv zeta.
    do 2 decide_if. rewrite (between_true 224 239) by lia.
    rewrite between_true by (destruct (224 + q =? 224) eqn:?, (224 + q =? 237) eqn:?; lia).
    unfold cont. rewrite between_true by lia. f_equal. f_equal. lia. }
  destruct (split4 c) as [q [m0 [m1 [m2 [-> [-> [-> [-> [E [H0 [H1 H2]]]]]]]]]]]. cbn [app utf8_items]. cbv zeta.
  do 1 decide_if. rewrite (between_false 194 223), (between_false 224 239), (between_true 240 244) by lia.
  rewrite between_true by (destruct (240 + q =? 240) eqn:?, (240 + q =? 244) eqn:?; lia).
  unfold cont. rewrite !between_true by lia. f_equal. f_equal. lia.
Qed.
Lemma utf8_items_app t r : Forall scalar t -> utf8_items (utf8 t ++ r) = map Some t ++ utf8_items r.
Proof.
  induction 1 as [|c t S _ IH]; [reflexivity|]. unfold utf8 in *. cbn [flat_map map app]. rewrite <- app_assoc.
  rewrite utf8_items_char by exact S. f_equal. exact IH.
Qed.

Lemma between_iff lo hi x : between lo hi x = true <-> lo <= x <= hi.
Proof. unfold between. lia. Qed.

Lemma utf8_char2 b c1 : 194 <= b <= 223 -> 128 <= c1 <= 191 -> utf8_char ((b - 192) * 64 + (c1 - 128)) = [b; c1] /\ scalar ((b - 192) * 64 + (c1 - 128)).
Proof.
  intros H1 H2. set (c := _ + _). assert (Q : c / 64 = b - 192) by (symmetry; apply (N.div_unique c 64 _ (c1 - 128)); unfold c; lia).
  assert (M : c mod 64 = c1 - 128) by (symmetry; apply (N.mod_unique c 64 (b - 192)); unfold c; lia).
  unfold utf8_char, scalar. rewrite Q, M. unfold c in *. clear Q M. split; [|lia].
  do 2 decide_if. f_equal; [lia|]. f_equal. lia.
Qed.
Lemma utf8_char3 b c1 c2 : 224 <= b <= 239 -> (if b =? 224 then 160 else 128) <= c1 <= (if b =? 237 then 159 else 191) -> 128 <= c2 <= 191 ->
  let c := (b - 224) * 4096 + (c1 - 128) * 64 + (c2 - 128) in utf8_char c = [b; c1; c2] /\ scalar c.
Proof.
  intros H1 H2 H3 c.
  assert (H4 : 128 <= c1 <= 191 /\ (b = 224 -> 160 <= c1) /\ (b = 237 -> c1 <= 159)) by (destruct (b =? 224) eqn:?, (b =? 237) eqn:?; lia).
  clear H2. assert (Q : c / 4096 = b - 224) by (symmetry; apply (N.div_unique c 4096 _ ((c1 - 128) * 64 + (c2 - 128))); unfold c; lia).
  assert (Q1 : c / 64 = (b - 224) * 64 + (c1 - 128)) by (symmetry; apply (N.div_unique c 64 _ (c2 - 128)); unfold c; lia).
  assert (M1 : (c / 64) mod 64 = c1 - 128) by (rewrite Q1; symmetry; apply (N.mod_unique _ 64 (b - 224)); lia).
  assert (M2 : c mod 64 = c2 - 128) by (symmetry; apply (N.mod_unique c 64 ((b - 224) * 64 + (c1 - 128))); unfold c; lia).
  unfold utf8_char, scalar. rewrite Q, M1, M2. unfold c in *. clear c Q Q1 M1 M2. split; [|lia].
  do 3 decide_if. f_equal; [lia|]. f_equal; [lia|]. f_equal. lia.
Qed.
Lemma utf8_char4 b c1 c2 c3 : 240 <= b <= 244 -> (if b =? 240 then 144 else 128) <= c1 <= (if b =? 244 then 143 else 191) ->
  128 <= c2 <= 191 -> 128 <= c3 <= 191 ->
  let c := (b - 240) * 262144 + (c1 - 128) * 4096 + (c2 - 128) * 64 + (c3 - 128) in utf8_char c = [b; c1; c2; c3] /\ scalar c.
Proof.
  intros H1 H2 H3 H5 c.
  assert (H4 : 128 <= c1 <= 191 /\ (b = 240 -> 144 <= c1) /\ (b = 244 -> c1 <= 143)) by (destruct (b =? 240) eqn:?, (b =? 244) eqn:?; lia).
  clear H2. assert (Q : c / 262144 = b - 240) by (symmetry; apply (N.div_unique c 262144 _ ((c1 - 128) * 4096 + (c2 - 128) * 64 + (c3 - 128))); unfold c; lia).
  assert (Q0 : c / 4096 = (b - 240) * 64 + (c1 - 128)) by (symmetry; apply (N.div_unique c 4096 _ ((c2 - 128) * 64 + (c3 - 128))); unfold c; lia).
  assert (Q1 : c / 64 = (b - 240) * 4096 + (c1 - 128) * 64 + (c2 - 128)) by (symmetry; apply (N.div_unique c 64 _ (c3 - 128)); unfold c; lia).
  assert (M0 : (c / 4096) mod 64 = c1 - 128) by (rewrite Q0; symmetry; apply (N.mod_unique _ 64 (b - 240)); lia).
  assert (M1 : (c / 64) mod 64 = c2 - 128) by (rewrite Q1; symmetry; apply (N.mod_unique _ 64 ((b - 240) * 64 + (c1 - 128))); lia).
  assert (M2 : c mod 64 = c3 - 128) by (symmetry; apply (N.mod_unique c 64 ((b - 240) * 4096 + (c1 - 128) * 64 + (c2 - 128))); unfold c; lia).
  unfold utf8_char, scalar. rewrite Q, M0, M1, M2. unfold c in *. clear c Q Q0 Q1 M0 M1 M2. split; [|lia].
  do 3 decide_if. f_equal; [lia|]. f_equal; [lia|]. f_equal; [lia|]. f_equal. lia.
Qed.

Lemma utf8_items_inv n : forall l t, (List.length l < n)%nat -> utf8_items l = map Some t -> Forall scalar t /\ l = utf8 t.
Proof.
  induction n as [|n IH]; intros l t L E; [lia|]. destruct l as [|b r].
  { destruct t; [split; [constructor | reflexivity] | discriminate]. }
  assert (K : forall c l' u, (List.length l' < n)%nat -> Some c :: utf8_items l' = map Some u -> scalar c -> b :: r = utf8_char c ++ l' ->
     Forall scalar u /\ b :: r = utf8 u).
  { intros c l' u L' E' S X. destruct u as [|c' u]; [discriminate|]. cbn [map] in E'. injection E' as <- E'.
    destruct (IH l' u L' E') as [F ->]. split; [constructor; assumption|]. exact X. }
  assert (Z : forall l', None :: l' <> map (@Some N) t) by (intros l'; destruct t; discriminate).
  assert (Z' : [None] <> map (@Some N) t) by apply Z.
  cbn [List.length] in L. cbn [utf8_items] in E. cbv zeta in E. destruct (b <? 128) eqn:E1.
  { apply (K b r t); [lia | exact E | unfold scalar; lia | unfold utf8_char; rewrite E1; reflexivity]. }
  destruct (between 194 223 b) eqn:E2.
  { destruct r as [|c1 r1]; [contradiction|]. destruct (cont c1) eqn:C1; [|contradiction (Z _ E)].
    apply between_iff in E2, C1. destruct (utf8_char2 b c1 E2 C1) as [X Y].
    eapply K; [|exact E|exact Y|rewrite X; reflexivity]. cbn [List.length] in L. lia. }
  destruct (between 224 239 b) eqn:E3.
  { destruct r as [|c1 r1]; [contradiction|]. destruct (between _ _ c1) eqn:C1 in E; [|contradiction (Z _ E)].
    destruct r1 as [|c2 r2]; [contradiction|]. destruct (cont c2) eqn:C2; [|contradiction (Z _ E)].
    apply between_iff in E3, C1, C2. destruct (utf8_char3 b c1 c2 E3 C1 C2) as [X Y].
    eapply K; [|exact E|exact Y|rewrite X; reflexivity]. cbn [List.length] in L. lia. }
  destruct (between 240 244 b) eqn:E4; [|contradiction (Z _ E)].
  destruct r as [|c1 r1]; [contradiction|]. destruct (between _ _ c1) eqn:C1 in E; [|contradiction (Z _ E)].
  destruct r1 as [|c2 r2]; [contradiction|]. destruct (cont c2) eqn:C2; [|contradiction (Z _ E)].
  destruct r2 as [|c3 r3]; [contradiction|]. destruct (cont c3) eqn:C3; [|contradiction (Z _ E)].
  apply between_iff in E4, C1, C2, C3. destruct (utf8_char4 b c1 c2 c3 E4 C1 C2 C3) as [X Y].
  eapply K; [|exact E|exact Y|rewrite X; reflexivity]. cbn [List.length] in L. lia.
Qed.

Lemma all_ok_iff l t : all_ok l = Some t <-> l = map Some t.
Proof.
  revert t. induction l as [|[c|] l IH]; intros t; cbn [all_ok].
  - destruct t; split; try discriminate; reflexivity.
  - destruct (all_ok l) as [u|] eqn:E.
    + pose proof (proj1 (IH u) eq_refl) as ->. split.
      * intros X; injection X as <-. reflexivity.
      * destruct t as [|c' t]; [discriminate|]. cbn [map]. intros X; injection X as -> X.
        f_equal. f_equal. apply (f_equal all_ok) in X. assert (G : forall v, all_ok (map Some v) = Some v).
        { induction v as [|x v IHv]; cbn; [reflexivity|]. rewrite IHv. reflexivity. }
        rewrite !G in X. injection X as ->. reflexivity.
    + split; [discriminate|]. destruct t as [|c' t]; [discriminate|]. cbn [map]. intros X; injection X as -> X.
      apply IH in X. discriminate.
  - split; [discriminate|]. destruct t; discriminate.
Qed.
Lemma from_utf8_iff l t : from_utf8 l = Some t <-> Forall scalar t /\ l = utf8 t.
Proof.
  unfold from_utf8. rewrite all_ok_iff. split.
  - intros E. eapply utf8_items_inv; [apply Nat.lt_succ_diag_r | exact E].
  - intros [F ->]. pose proof (utf8_items_app t [] F) as E. rewrite !app_nil_r in E. exact E.
Qed.

(** * windows-1252 *)
Lemma win1252_ok b : byte b -> windows_1252 b (win1252 b).
Proof.
  intros B. assert (G : forallb (fun b => let c := win1252 b in
     existsb (fun e => (fst e =? b) && (snd e =? c)) windows_1252_specials ||
     (negb (existsb (fun x => x =? b) (map fst windows_1252_specials)) && (c =? b)))
     (map N.of_nat (seq 0 256)) = true) by (vm_compute; reflexivity).
  rewrite forallb_forall in G. specialize (G b). cbv zeta in G.
  assert (I : In b (map N.of_nat (seq 0 256))).
  { apply in_map_iff. exists (N.to_nat b). split; [lia|]. apply in_seq. unfold byte in B. lia. }
  specialize (G I). apply orb_true_iff in G. destruct G as [G|G].
  - left. apply existsb_exists in G. destruct G as [[x y] [J K]]. cbn [fst snd] in K.
    assert (x = b /\ y = win1252 b) as [-> ->] by lia. exact J.
  - right. apply andb_true_iff in G. destruct G as [G1 G2]. split; [|lia]. intros J.
    apply negb_true_iff in G1. assert (X : existsb (fun x => x =? b) (map fst windows_1252_specials) = true).
    { apply existsb_exists. exists b. split; [exact J | apply N.eqb_refl]. }
    congruence.
Qed.
Lemma windows_1252_inj b b' c : windows_1252 b c -> windows_1252 b' c -> byte b -> byte b' -> b = b'.
Proof.
  assert (G : forallb (fun e => (256 <=? snd e) && forallb (fun e' => implb (snd e =? snd e') (fst e =? fst e')) windows_1252_specials)
     windows_1252_specials = true) by (vm_compute; reflexivity).
  rewrite forallb_forall in G. unfold byte. intros [A|[A ->]] [B|[B ->]] H H'.
  - pose proof (G _ A) as X. cbn [fst snd] in X. apply andb_true_iff in X. destruct X as [_ X]. rewrite forallb_forall in X.
    specialize (X _ B). cbn [fst snd] in X. rewrite N.eqb_refl in X. cbn [implb] in X. lia.
  - pose proof (G _ A) as X. cbn [fst snd] in X. lia.
  - pose proof (G _ B) as X. cbn [fst snd] in X. lia.
  - reflexivity.
Qed.
Lemma windows_1252_scalar b c : byte b -> windows_1252 b c -> scalar c.
Proof.
  assert (G : forallb (fun e => snd e <? 55296) windows_1252_specials = true) by (vm_compute; reflexivity).
  rewrite forallb_forall in G. intros B [A|[_ ->]]; [|left; unfold byte in B; lia]. specialize (G _ A). cbn in G. left. lia.
Qed.

Lemma decode_no_bom l : ~ has_bom l -> decode_1252 l = map win1252 l.
Proof.
  intros H. unfold decode_1252.
  destruct l as [|a l]; [reflexivity|].
  destruct (N.eq_dec a 239) as [->|A1]; [|destruct (N.eq_dec a 255) as [->|A2]; [|destruct (N.eq_dec a 254) as [->|A3]]].
  - destruct l as [|b l]; [reflexivity|]. destruct (N.eq_dec b 187) as [->|B]; [destruct l as [|c l]; [reflexivity|]; destruct (N.eq_dec c 191) as [->|C]|].
    + exfalso. apply H. left. eauto.
    + repeat (reflexivity || match goal with |- context[match ?x with _ => _ end] => is_var x; destruct x end). congruence.
    + repeat (reflexivity || match goal with |- context[match ?x with _ => _ end] => is_var x; destruct x end); congruence.
  - destruct l as [|b l]; [reflexivity|]. destruct (N.eq_dec b 254) as [->|B].
    + exfalso. apply H. right; left. eauto.
    + repeat (reflexivity || match goal with |- context[match ?x with _ => _ end] => is_var x; destruct x end); congruence.
  - destruct l as [|b l]; [reflexivity|]. destruct (N.eq_dec b 255) as [->|B].
    + exfalso. apply H. right; right. eauto.
    + repeat (reflexivity || match goal with |- context[match ?x with _ => _ end] => is_var x; destruct x end); congruence.
  - repeat (reflexivity || match goal with |- context[match ?x with _ => _ end] => is_var x; destruct x end); congruence.
Qed.

Lemma read_utf8 t : Forall scalar t -> read_to_string (utf8 t) = t.
Proof.
  intros F. unfold read_to_string. assert (E : from_utf8 (utf8 t) = Some t) by (apply from_utf8_iff; auto). rewrite E. reflexivity.
Qed.
Lemma read_other l : ~ is_utf8 l -> read_to_string l = decode_1252 l.
Proof.
  intros N. unfold read_to_string. destruct (from_utf8 l) as [t|] eqn:E; [|reflexivity].
  exfalso. apply N. exists t. apply from_utf8_iff, E.
Qed.
Lemma read_1252 l : Forall byte l -> ~ is_utf8 l -> ~ has_bom l -> Forall2 windows_1252 l (read_to_string l).
Proof.
  intros F N B. rewrite read_other, decode_no_bom by assumption. clear N B.
  induction F as [|b l H _ IH]; cbn [map]; constructor; [apply win1252_ok, H | exact IH].
Qed.

(** * UTF-16 *)
Lemma unit_bytes_unit le u : u < 65536 -> exists a b, unit_bytes le u = [a; b] /\ unit_ le a b = u.
Proof.
  intros H. pose proof (N.div_mod' u 256). destruct le; cbn [unit_bytes unit_]; eexists; eexists; (split; [reflexivity|]); lia.
Qed.
Lemma utf16_char_ok le c r : scalar c -> utf16 le (utf16_char le c ++ r) = c :: utf16 le r.
Proof.
  intros S. unfold utf16_char. destruct (c <? 65536) eqn:E.
  - destruct (unit_bytes_unit le c) as [a [b [-> U]]]; [lia|]. cbn [app utf16]. cbv zeta. rewrite U.
    unfold scalar in S. rewrite !between_false by lia. reflexivity.
  - unfold scalar in S. pose proof (N.div_mod' (c - 65536) 1024) as D. pose proof (N.mod_lt (c - 65536) 1024 ltac:(lia)) as M.
    assert (Q : (c - 65536) / 1024 < 1024) by (apply N.div_lt_upper_bound; lia).
    set (q := (c - 65536) / 1024) in *. set (m := (c - 65536) mod 1024) in *.
    destruct (unit_bytes_unit le (55296 + q)) as [a [b [-> U]]]; [lia|].
    destruct (unit_bytes_unit le (56320 + m)) as [a' [b' [-> U']]]; [lia|].
    cbn [app utf16]. cbv zeta. rewrite U, U', !between_true by lia. f_equal. lia.
Qed.
Lemma utf16_ok le t : Forall scalar t -> utf16 le (utf16_bytes le t) = t.
Proof.
  induction 1 as [|c t S _ IH]; [reflexivity|]. unfold utf16_bytes in *. cbn [flat_map]. rewrite utf16_char_ok by exact S. rewrite IH. reflexivity.
Qed.
Lemma not_utf8_ff b r : b = 254 \/ b = 255 -> ~ is_utf8 (b :: r).
Proof.
  intros B [t [F E]]. assert (X : from_utf8 (b :: r) = Some t) by (apply from_utf8_iff; auto).
  unfold from_utf8 in X. cbn [utf8_items] in X. destruct B as [->| ->]; cbn in X; discriminate.
Qed.
Lemma read_utf16 (le : bool) t : Forall scalar t -> read_to_string ((if le then [255; 254] else [254; 255]) ++ utf16_bytes le t) = t.
Proof.
  intros F. rewrite read_other by (destruct le; apply not_utf8_ff; auto).
  destruct le; cbn [app decode_1252]; apply utf16_ok, F.
Qed.

(** * Every result consists of scalar values *)
Lemma all_items_scalar n : forall l, (List.length l < n)%nat -> Forall (fun o => match o with Some c => scalar c | None => True end) (utf8_items l).
Proof.
  induction n as [|n IH]; intros l L; [lia|]. destruct l as [|b r]; [constructor|]. cbn [utf8_items List.length] in *. cbv zeta.
  assert (ONE : Forall (fun o => match o with Some c => scalar c | None => True end) [None]) by (constructor; [exact I | constructor]).
  destruct (b <? 128) eqn:E1; [constructor; [unfold scalar; lia | apply IH; lia]|].
  destruct (between 194 223 b) eqn:E2.
  { destruct r as [|c1 r1]; [exact ONE|]. cbn [List.length] in L. destruct (cont c1) eqn:C1; [|constructor; [exact I | apply IH; cbn [List.length]; lia]].
    apply between_iff in E2, C1. constructor; [apply utf8_char2; assumption | apply IH; lia]. }
  destruct (between 224 239 b) eqn:E3.
  { destruct r as [|c1 r1]; [exact ONE|]. cbn [List.length] in L.
    destruct (between _ _ c1) eqn:C1; [|constructor; [exact I | apply IH; cbn [List.length]; lia]].
    destruct r1 as [|c2 r2]; [exact ONE|]. cbn [List.length] in L. destruct (cont c2) eqn:C2; [|constructor; [exact I | apply IH; cbn [List.length]; lia]].
    apply between_iff in E3, C1, C2. constructor; [apply utf8_char3; assumption | apply IH; lia]. }
  destruct (between 240 244 b) eqn:E4; [|constructor; [exact I | apply IH; lia]].
  destruct r as [|c1 r1]; [exact ONE|]. cbn [List.length] in L.
  destruct (between _ _ c1) eqn:C1; [|constructor; [exact I | apply IH; cbn [List.length]; lia]].
  destruct r1 as [|c2 r2]; [exact ONE|]. cbn [List.length] in L. destruct (cont c2) eqn:C2; [|constructor; [exact I | apply IH; cbn [List.length]; lia]].
  destruct r2 as [|c3 r3]; [exact ONE|]. cbn [List.length] in L. destruct (cont c3) eqn:C3; [|constructor; [exact I | apply IH; cbn [List.length]; lia]].
  apply between_iff in E4, C1, C2, C3. constructor; [apply utf8_char4; assumption | apply IH; lia].
Qed.
Lemma scalar_fffd : scalar 65533. Proof. unfold scalar. lia. Qed.
Lemma lossy_scalar l : Forall scalar (utf8_lossy l).
Proof.
  unfold utf8_lossy. pose proof (all_items_scalar _ l (Nat.lt_succ_diag_r _)) as F. induction F as [|o l' H _ IH]; cbn [map]; constructor; [|exact IH].
  destruct o; [exact H | apply scalar_fffd].
Qed.
Lemma unit_lt le a b : byte a -> byte b -> unit_ le a b < 65536.
Proof. unfold byte, unit_. destruct le; lia. Qed.
Lemma utf16_scalar le n : forall l, (List.length l < n)%nat -> Forall byte l -> Forall scalar (utf16 le l).
Proof.
  induction n as [|n IH]; intros l L F; [lia|]. destruct l as [|a [|b r]]; [apply Forall_nil | cbn [utf16]; constructor; [apply scalar_fffd | constructor] |].
  cbn [List.length] in L. inversion F as [|? ? A F1]; subst. inversion F1 as [|? ? B F2]; subst.
  cbn [utf16]. cbv zeta. pose proof (unit_lt le a b A B) as U. destruct (between 55296 56319 _) eqn:E1.
  - destruct r as [|c [|d r']]; [constructor; [apply scalar_fffd | constructor] | constructor; [apply scalar_fffd | constructor] |].
    inversion F2 as [|? ? C F3]; subst. inversion F3 as [|? ? D F4]; subst. cbn [List.length] in L. pose proof (unit_lt le c d C D) as U'.
    destruct (between 56320 57343 _) eqn:E2.
    + constructor; [|apply IH; [lia | exact F4]]. apply between_iff in E1, E2. unfold scalar. lia.
    + constructor; [apply scalar_fffd | apply IH; [cbn [List.length]; lia | exact F2]].
  - destruct (between 56320 57343 _) eqn:E2; (constructor; [|apply IH; [lia | exact F2]]); [apply scalar_fffd|].
    unfold between in *. unfold scalar. lia.
Qed.
Lemma read_scalars l : Forall byte l -> Forall scalar (read_to_string l).
Proof.
  intros F. unfold read_to_string. destruct (from_utf8 l) as [t|] eqn:E; [apply from_utf8_iff in E; apply E|].
  assert (D : decode_1252 l = map win1252 l \/ (exists r, decode_1252 l = utf8_lossy r) \/ (exists le r, decode_1252 l = utf16 le r /\ Forall byte r)).
  { assert (B : {has_bom l} + {~ has_bom l}).
    { unfold has_bom. destruct l as [|a [|b l]].
      - right. intros [[r H]|[[r H]|[r H]]]; discriminate.
      - right. intros [[r H]|[[r H]|[r H]]]; discriminate.
      - destruct (N.eq_dec a 255) as [->|A1]; [destruct (N.eq_dec b 254) as [->|B1]|destruct (N.eq_dec a 254) as [->|A2]; [destruct (N.eq_dec b 255) as [->|B1]|]].
        + left. eauto.
        + right. intros [[r H]|[[r H]|[r H]]]; congruence.
        + left. eauto.
        + right. intros [[r H]|[[r H]|[r H]]]; congruence.
        + destruct l as [|c l]; [right; intros [[r H]|[[r H]|[r H]]]; congruence|].
          destruct (N.eq_dec a 239) as [->|A3]; [|right; intros [[r H]|[[r H]|[r H]]]; congruence].
          destruct (N.eq_dec b 187) as [->|B3]; [|right; intros [[r H]|[[r H]|[r H]]]; congruence].
          destruct (N.eq_dec c 191) as [->|C3]; [|right; intros [[r H]|[[r H]|[r H]]]; congruence].
          left. eauto. }
    destruct B as [B|B]; [|left; apply decode_no_bom, B]. right. destruct B as [[r ->]|[[r ->]|[r ->]]].
    - left. exists r. reflexivity.
    - right. exists true, r. split; [reflexivity|]. inversion F as [|? ? _ F1]; subst. inversion F1; subst. assumption.
    - right. exists false, r. split; [reflexivity|]. inversion F as [|? ? _ F1]; subst. inversion F1; subst. assumption. }
  destruct D as [->|[[r ->]|[le [r [-> R]]]]].
  - clear E. induction F as [|b l H _ IH]; cbn [map]; constructor; [|exact IH]. eapply windows_1252_scalar; [exact H | apply win1252_ok, H].
  - apply lossy_scalar.
  - eapply utf16_scalar; [apply Nat.lt_succ_diag_r | exact R].
Qed.
Lemma Forall2_length {A B} (R : A -> B -> Prop) a b : Forall2 R a b -> List.length a = List.length b.
Proof. induction 1; cbn; congruence. Qed.
