(** Proofs about locations. *)
From Coq Require Import ZifyBool ZifyN ZifyNat.
From Verif Require Import Base Num NumProofs Float Unicode Locations SpecLocations.

(** * Multimaps of named things *)
Lemma hd_filter {A} (p : A -> bool) l : hd_error (filter p l) = find p l.
Proof. induction l as [|x l IH]; cbn; [reflexivity|]. destruct (p x); [reflexivity | exact IH]. Qed.

Lemma values_named {A} (name : A -> text) d l :
  values_of d (map (fun x => (name x, x)) l) = filter (fun x => eqb (name x) d) l.
Proof.
  unfold values_of. induction l as [|x l IH]; cbn [map filter]; [reflexivity|]. cbn [fst].
  assert (E : eqb d (name x) = eqb (name x) d).
  { unfold eqb. destruct (eq_dec d (name x)), (eq_dec (name x) d); congruence. }
  rewrite E. destruct (eqb (name x) d); cbn [map snd]; congruence.
Qed.

Lemma mget_named {A} (name : A -> text) d l :
  mget d (mpush_all (map (fun x => (name x, x)) l) []) = first_named name d l.
Proof.
  rewrite mget_hd, mget_vec_push_all, values_named. cbn. apply hd_filter.
Qed.

Lemma has_named {A} (name : A -> text) d l :
  has d (mpush_all (map (fun x => (name x, x)) l) []) =
  match first_named name d l with Some _ => true | None => false end.
Proof.
  assert (NE : forall l m, (forall k x, get k m = Some x -> x <> []) ->
    forall k x, get k (mpush_all (K := text) (V := A) l m) = Some x -> x <> []).
  { induction l0 as [|[k v] l0 IH]; intros m H; cbn; [exact H|]. apply IH.
    intros k' x. unfold mpush. rewrite get_put. destruct (eq_dec k' k); [|apply H].
    intros E. injection E as <-. destruct (mget_vec k m); discriminate. }
  rewrite <- mget_named. unfold has, mget.
  destruct (get d _) as [[|x v]|] eqn:E; try reflexivity.
  exfalso. apply (NE (map (fun x => (name x, x)) l) []) in E; [congruence|]. intros k x; discriminate.
Qed.

Lemma first_named_eq {A} (name : A -> text) d l x : first_named name d l = Some x -> name x = d.
Proof. intros E. apply find_some in E. destruct E as [_ E]. rewrite eqb_true in E. exact E. Qed.

(** * Airports *)
Lemma get_map_rev {V} (f : sct_airport -> V) d l :
  match get d (rev (map (fun a => (sa_des a, f a)) l)) with
  | Some v => exists pre s post, l = pre ++ s :: post /\ sa_des s = d /\ ~ In d (map sa_des post) /\ v = f s
  | None => ~ In d (map sa_des l)
  end.
Proof.
  induction l as [|a l IH] using rev_ind; cbn; [tauto|].
  rewrite map_app, rev_app_distr. cbn [map rev app get].
  destruct (eq_dec d (sa_des a)) as [->|n].
  - exists l, a, []. cbn. auto.
  - destruct (get d (rev (map (fun a0 => (sa_des a0, f a0)) l))) as [v|].
    + destruct IH as [pre [s [post [-> [E [N V']]]]]]. exists pre, s, (post ++ [a]).
      rewrite <- app_assoc. cbn. repeat split; auto. rewrite map_app, in_app_iff. cbn. intuition congruence.
    + rewrite map_app, in_app_iff. cbn. intuition congruence.
Qed.

Definition sct_entry (i : loc_input) (d : text) : option airport :=
  get d (from_sct_airports (i_airports i) (i_runways i)).
Lemma sct_entry_spec i d :
  match sct_entry i d with
  | None => ~ in_sct i d
  | Some a => exists s, last_sct i d s /\
      a = mkAirport d (sa_pos s) None None (filter (fun r => eqb (r_ad r) d) (i_runways i))
  end.
Proof.
  unfold sct_entry, from_sct_airports. rewrite get_of_list.
  pose proof (get_map_rev (fun a => mkAirport (sa_des a) (sa_pos a) None None
                            (filter (fun r => eqb (r_ad r) (sa_des a)) (i_runways i))) d (i_airports i)) as H.
  destruct (get d _) as [a|]; [|exact H].
  destruct H as [pre [s [post [E [<- [N ->]]]]]]. exists s. split; [exists pre, post; auto | reflexivity].
Qed.

Lemma get_navdata nv : NoDup (keys nv) -> forall t d,
  get d (fold_left add_navdata nv t) =
  match get d nv with
  | None => get d t
  | Some n => Some (match get d t with
      | Some a => mkAirport (ap_des a) (ap_pos a) (or_insert (ap_name a) (nd_name n)) (ap_country a) (ap_runways a)
      | None => mkAirport d (nd_pos n) (Some (nd_name n)) None []
      end)
  end.
Proof.
  induction nv as [|[k n] nv IH]; intros ND t d; [reflexivity|]. cbn [fold_left get].
  inversion ND as [|? ? NI ND']; subst. rewrite (IH ND').
  assert (G : get d (add_navdata t (k, n)) = if eq_dec d k then
     Some (match get d t with
      | Some a => mkAirport (ap_des a) (ap_pos a) (or_insert (ap_name a) (nd_name n)) (ap_country a) (ap_runways a)
      | None => mkAirport d (nd_pos n) (Some (nd_name n)) None [] end) else get d t).
  { unfold add_navdata. destruct (eq_dec d k) as [->|ne].
    - destruct (get k t) eqn:E; rewrite get_put_same; reflexivity.
    - destruct (get k t); rewrite get_put_other by exact ne; reflexivity. }
  rewrite G. destruct (eq_dec d k) as [->|ne]; [|reflexivity].
  apply get_None in NI. rewrite NI. reflexivity.
Qed.

Lemma get_icao nv : NoDup (keys nv) -> forall t d,
  get d (fold_left add_icao nv t) =
  match get d nv, get d t with
  | Some n, Some a => Some (mkAirport (ap_des a) (ap_pos a) (or_insert (ap_name a) (ic_name n))
                              (or_insert (ap_country a) (ic_country n)) (ap_runways a))
  | _, o => o
  end.
Proof.
  induction nv as [|[k n] nv IH]; intros ND t d; [reflexivity|]. cbn [fold_left get].
  inversion ND as [|? ? NI ND']; subst. rewrite (IH ND').
  assert (G : get d (add_icao t (k, n)) = if eq_dec d k then
     match get d t with
      | Some a => Some (mkAirport (ap_des a) (ap_pos a) (or_insert (ap_name a) (ic_name n))
                              (or_insert (ap_country a) (ic_country n)) (ap_runways a))
      | None => None end else get d t).
  { unfold add_icao. destruct (eq_dec d k) as [->|ne].
    - destruct (get k t) eqn:E; [rewrite get_put_same; reflexivity | exact E].
    - destruct (get k t); [rewrite get_put_other by exact ne|]; reflexivity. }
  rewrite G. destruct (eq_dec d k) as [->|ne]; [|reflexivity].
  apply get_None in NI. rewrite NI. destruct (get k t); reflexivity.
Qed.

Lemma airport_table_spec i d : input_ok i ->
  airport_entry i d (get d (airport_table (i_airports i) (i_runways i) (i_navdata i) (i_icao i))).
Proof.
  intros [N1 N2]. unfold airport_table. rewrite get_icao, get_navdata by assumption.
  fold (sct_entry i d). pose proof (sct_entry_spec i d) as S.
  destruct (get d (i_navdata i)) as [n|] eqn:En.
  - destruct (sct_entry i d) as [a|].
    + destruct S as [s [LS ->]]. cbn [ap_des ap_pos ap_name ap_country ap_runways or_insert].
      destruct (get d (i_icao i)) as [c|] eqn:Ec; unfold airport_entry;
        cbn [ap_des ap_pos ap_name ap_country ap_runways or_insert]; rewrite En, Ec; eauto 10.
    + destruct (get d (i_icao i)) as [c|] eqn:Ec; unfold airport_entry;
        cbn [ap_des ap_pos ap_name ap_country ap_runways or_insert]; rewrite En, Ec; eauto 10.
  - destruct (sct_entry i d) as [a|].
    + destruct S as [s [LS ->]].
      destruct (get d (i_icao i)) as [c|] eqn:Ec; unfold airport_entry;
        cbn [ap_des ap_pos ap_name ap_country ap_runways or_insert]; rewrite En, Ec; eauto 10.
    + apply get_None in En. destruct (get d (i_icao i)); split; assumption.
Qed.

Lemma airport_entry_fun i d o o' : airport_entry i d o -> airport_entry i d o' -> o = o'.
Proof.
  assert (LU : forall s s', last_sct i d s -> last_sct i d s' -> s = s').
  { intros s s' [p [q [E [D N]]]] [p' [q' [E' [D' N']]]]. rewrite E in E'. clear E.
    revert p' E'. induction p as [|x p IH]; intros [|x' p'] E'; cbn in E'.
    - congruence.
    - injection E' as -> ->. exfalso. apply N. rewrite map_app, in_app_iff. right. left. exact D'.
    - injection E' as <- <-. exfalso. apply N'. rewrite map_app, in_app_iff. right. left. exact D.
    - injection E' as -> E'. eauto. }
  assert (LI : forall s, last_sct i d s -> in_sct i d).
  { intros s [p [q [E [D N]]]]. unfold in_sct. rewrite E, map_app, in_app_iff. right. left. exact D. }
  intros A B. destruct o as [a|], o' as [b|]; [| | |reflexivity]; cbn [airport_entry] in *.
  - destruct A as [A1 [A2 [A3 A4]]], B as [B1 [B2 [B3 B4]]]. f_equal.
    destruct a as [a1 a2 a3 a4 a5], b as [b1 b2 b3 b4 b5]; cbn in *.
    assert (a2 = b2 /\ a5 = b5) as [-> ->]; [|congruence].
    destruct A2 as [[s [L [P R]]]|[NS [n [G [P R]]]]], B2 as [[s' [L' [P' R']]]|[NS' [n' [G' [P' R']]]]].
    + rewrite (LU _ _ L L') in *. split; congruence.
    + exfalso. eauto.
    + exfalso. eauto.
    + rewrite G in G'. injection G' as <-. split; congruence.
  - exfalso. destruct A as [_ [[[s [L _]]|[_ [n [G _]]]] _]]; [apply (proj1 B); eauto | apply (proj2 B); eapply get_Some_key; eauto].
  - exfalso. destruct B as [_ [[[s [L _]]|[_ [n [G _]]]] _]]; [apply (proj1 A); eauto | apply (proj2 A); eapply get_Some_key; eauto].
Qed.

(** * Byte positions *)
Lemma utf8_len1_pos c : 1 <= utf8_len1 c.
Proof. unfold utf8_len1. repeat destruct (_ <? _)%N; lia. Qed.
Lemma utf8_len_app a b : utf8_len (a ++ b) = utf8_len a + utf8_len b.
Proof. unfold utf8_len. induction a; cbn in *; [reflexivity | lia]. Qed.
Lemma utf8_len_cons c s : utf8_len (c :: s) = utf8_len1 c + utf8_len s.
Proof. reflexivity. Qed.

Lemma split_bytes_spec s : forall n a b, split_bytes n s = Some (a, b) <-> s = a ++ b /\ utf8_len a = n.
Proof.
  induction s as [|c s IH]; intros n a b.
  - destruct n; cbn.
    + split; [intros E; injection E as <- <-; auto|]. intros [E L]. destruct a, b; try discriminate. reflexivity.
    + split; [discriminate|]. intros [E L]. destruct a; [cbn in L; lia | discriminate].
  - pose proof (utf8_len1_pos c). destruct n as [|n].
    + cbn [split_bytes]. split; [intros E; injection E as <- <-; auto|]. intros [E L].
      destruct a as [|x a]; [cbn in E; subst b; reflexivity|]. cbn in E. injection E as -> ->. rewrite utf8_len_cons in L. lia.
    + cbn [split_bytes]. set (m := S n) in *. destruct (Nat.leb_spec (utf8_len1 c) m).
      * destruct (split_bytes (m - utf8_len1 c) s) as [[a' b']|] eqn:E.
        -- apply IH in E. destruct E as [-> E]. split.
           ++ intros X; injection X as <- <-. rewrite utf8_len_cons. split; [reflexivity | lia].
           ++ intros [X L]. destruct a as [|x a]; [cbn in L; lia|]. cbn in X. injection X as -> X.
              rewrite utf8_len_cons in L.
              assert (E2 : split_bytes (m - utf8_len1 x) (a' ++ b') = Some (a', b')) by (apply IH; split; [reflexivity | exact E]).
              assert (E3 : split_bytes (m - utf8_len1 x) (a' ++ b') = Some (a, b)) by (apply IH; split; [exact X | lia]).
              rewrite E2 in E3; injection E3 as -> ->; reflexivity.
        -- split; [discriminate|]. intros [X L]. destruct a as [|x a]; [cbn in L; lia|]. cbn in X. injection X as -> ->.
           rewrite utf8_len_cons in L.
           assert (E3 : split_bytes (m - utf8_len1 x) (a ++ b) = Some (a, b)) by (apply IH; split; [reflexivity | lia]).
           congruence.
      * split; [discriminate|]. intros [X L]. destruct a as [|x a]; [cbn in L; lia|]. cbn in X. injection X as -> ->.
        rewrite utf8_len_cons in L. lia.
Qed.

Lemma utf8_len_ascii s : ascii s -> utf8_len s = List.length s.
Proof.
  induction 1 as [|c s H _ IH]; [reflexivity|]. rewrite utf8_len_cons, IH. unfold utf8_len1.
  destruct (c <? 128)%N eqn:E; cbn; lia.
Qed.

Lemma split_bytes_ascii n s : ascii s -> n <= List.length s -> split_bytes n s = Some (firstn n s, skipn n s).
Proof.
  intros A L. apply split_bytes_spec. split; [symmetry; apply firstn_skipn|].
  rewrite utf8_len_ascii; [apply firstn_length_le; exact L|].
  unfold ascii in *. rewrite <- (firstn_skipn n s) in A. apply Forall_app in A. apply A.
Qed.

Lemma ascii_app a b : ascii (a ++ b) <-> ascii a /\ ascii b.
Proof. apply Forall_app. Qed.

Lemma slice_ascii a b s : ascii s -> a <= b -> b <= List.length s -> slice a b s = Some (firstn (b - a) (skipn a s)).
Proof.
  intros A H L. unfold slice. rewrite split_bytes_ascii by (auto; lia).
  assert (A2 : ascii (skipn a s)) by (rewrite <- (firstn_skipn a s) in A; apply ascii_app in A; apply A).
  rewrite split_bytes_ascii; [reflexivity | exact A2 | rewrite skipn_length; lia].
Qed.

(** * Digits *)
Lemma is_nd_ascii c : (c < 128)%N -> is_nd c = is_digit c.
Proof.
  intros L. unfold is_nd, in_ranges.
  assert (E : exists rest, nd_ranges = (48, 57)%N :: rest /\ forallb (fun r => 128 <=? fst r)%N rest = true).
  { eexists. split; [reflexivity | vm_compute; reflexivity]. }
  destruct E as [rest [-> F]]. cbn [existsb fst snd]. unfold is_digit.
  replace (existsb _ rest) with false; [apply orb_false_r|]. symmetry.
  induction rest as [|r rest IH]; [reflexivity|]. cbn [forallb existsb] in *.
  apply andb_prop in F. destruct F as [F1 F2]. rewrite (IH F2), orb_false_r. lia.
Qed.
Lemma is_digit_spec c : is_digit c = true <-> digit c.
Proof. unfold is_digit, digit. lia. Qed.

Lemma digits_val_decimal s : Forall digit s -> forall a, digits_val 10 a s =
  Some (fold_left (fun a c => (a * 10 + (c - 48))%N) s a).
Proof.
  induction 1 as [|c s D _ IH]; intros a; cbn [digits_val fold_left]; [reflexivity|].
  unfold digit_val. replace (is_digit c) with true by (symmetry; apply is_digit_spec; exact D).
  unfold digit in D. replace (c - 48 <? 10)%N with true by lia. apply IH.
Qed.
Lemma parse_digits_number s : Forall digit s -> s <> [] -> parse_digits s = Some (number s).
Proof.
  intros D NE. unfold parse_digits, digits1_val. destruct s as [|c s]; [congruence|].
  rewrite digits_val_decimal by exact D. reflexivity.
Qed.

Lemma Forall_firstn {A} (P : A -> Prop) n l : Forall P l -> Forall P (firstn n l).
Proof. intros H. rewrite <- (firstn_skipn n l) in H. apply Forall_app in H. apply H. Qed.
Lemma Forall_skipn {A} (P : A -> Prop) n l : Forall P l -> Forall P (skipn n l).
Proof. intros H. rewrite <- (firstn_skipn n l) in H. apply Forall_app in H. apply H. Qed.

Lemma digits_ascii s : Forall digit s -> ascii s.
Proof. apply Forall_impl. unfold digit. intros; lia. Qed.

Lemma coord_value_spec w s k : 1 <= w -> Forall digit s -> k <= 2 -> List.length s = w + 2 * k ->
  coord_value w s = Some (degrees w s).
Proof.
  intros W D K L. pose proof (digits_ascii s D) as A.
  assert (P : forall a b, a < b -> b <= List.length s ->
    obind (slice a b s) parse_digits = Some (number (firstn (b - a) (skipn a s)))).
  { intros a b H1 H2. rewrite slice_ascii by (auto; lia). cbn [obind].
    apply parse_digits_number; [apply Forall_firstn, Forall_skipn, D|].
    intros E. apply (f_equal (@List.length N)) in E. rewrite firstn_length, skipn_length in E. cbn in E. lia. }
  unfold coord_value, degrees. rewrite utf8_len_ascii by exact A.
  destruct (Nat.eqb_spec (List.length s) w) as [E|N1].
  - rewrite parse_digits_number; [|exact D|destruct s; cbn in *; [lia | discriminate]].
    rewrite firstn_all2 by lia. reflexivity.
  - destruct (Nat.eqb_spec (List.length s) (w + 2)) as [E|N2].
    + rewrite !P by lia. cbn [plus60 skipn]. rewrite Nat.sub_0_r, !Nat.add_sub_swap, !Nat.sub_diag by lia. reflexivity.
    + replace (List.length s =? w + 4) with true by (symmetry; apply Nat.eqb_eq; lia).
      rewrite !P by lia. cbn [plus60 plus3600 skipn].
      replace (w - 0) with w by lia. replace (w + 2 - w) with 2 by lia. replace (w + 4 - (w + 2)) with 2 by lia.
      reflexivity.
Qed.

(** * Coordinate waypoints *)
Lemma span_nd_spec s : ascii s -> forall a b, span_nd s = (a, b) <->
  s = a ++ b /\ Forall digit a /\ match b with c :: _ => ~ digit c | [] => True end.
Proof.
  induction 1 as [|c s A _ IH]; intros a b; cbn [span_nd].
  - split; [intros E; injection E as <- <-; auto|]. intros [E [_ _]]. destruct a, b; try discriminate. reflexivity.
  - rewrite is_nd_ascii by exact A. destruct (is_digit c) eqn:D.
    + apply is_digit_spec in D. destruct (span_nd s) as [a' b'] eqn:E.
      destruct (proj1 (IH a' b') eq_refl) as [-> [F B]]. split.
      * intros X; injection X as <- <-. auto.
      * intros [X [F' B']]. destruct a as [|x a]; cbn in X.
        -- subst b. contradiction.
        -- injection X as -> X. inversion F'; subst.
           assert (E2 : (a', b') = (a, b)) by (apply IH; auto). injection E2 as -> ->; reflexivity.
    + split.
      * intros X; injection X as <- <-. split; [reflexivity|]. split; [constructor|].
        rewrite <- is_digit_spec. congruence.
      * intros [X [F B]]. destruct a as [|x a]; cbn in X; [rewrite <- X; reflexivity|]. injection X as -> _.
        inversion F; subst. apply is_digit_spec in H1. congruence.
Qed.

Lemma coord_captures_spec d : ascii d -> forall lat ns lng ew,
  coord_captures d = Some (lat, ns, lng, ew) <->
  d = lat ++ [ns] ++ lng ++ [ew] /\ Forall digit lat /\ Forall digit lng /\
  1 <= List.length lat <= 6 /\ 2 <= List.length lng <= 7 /\
  (ns = 78 \/ ns = 83)%N /\ (ew = 69 \/ ew = 87)%N.
Proof.
  intros A lat ns lng ew. unfold coord_captures.
  destruct (span_nd d) as [a b] eqn:E. apply span_nd_spec in E; [|exact A]. destruct E as [-> [Fa Ba]].
  apply ascii_app in A. destruct A as [Aa Ab]. split.
  - destruct b as [|c b]; [discriminate|].
    assert (Ab' : ascii b) by (inversion Ab; assumption).
    destruct (span_nd b) as [a2 b2] eqn:E2. apply span_nd_spec in E2; [|exact Ab']. destruct E2 as [-> [Fa2 Ba2]].
    destruct b2 as [|e [|? ?]]; try discriminate.
    destruct ((Nat.leb 1 (List.length a) && Nat.leb (List.length a) 6) && ((c =? 78)%N || (c =? 83)%N)
         && (Nat.leb 2 (List.length a2) && Nat.leb (List.length a2) 7) && ((e =? 69)%N || (e =? 87)%N)) eqn:C;
      [|discriminate].
    intros X; injection X as <- <- <- <-. repeat split; try assumption; lia.
  - intros [X [F1 [F2 [L1 [L2 [N1 N2]]]]]].
    assert (E1 : span_nd (a ++ b) = (lat, [ns] ++ lng ++ [ew])).
    { apply span_nd_spec; [apply ascii_app; auto|]. repeat split; auto. cbn. unfold digit. lia. }
    assert (E2 : span_nd (a ++ b) = (a, b)) by (apply span_nd_spec; [apply ascii_app; auto | auto]).
    rewrite E1 in E2. injection E2 as <- <-. cbn [app].
    cbn [app] in Ab. inversion Ab as [|? ? Ac Ab']; subst.
    assert (E3 : span_nd (lng ++ [ew]) = (lng, [ew])).
    { apply span_nd_spec; [exact Ab'|]. repeat split; auto. unfold digit. lia. }
    rewrite E3.
    replace ((Nat.leb 1 (List.length lat) && Nat.leb (List.length lat) 6) && ((ns =? 78)%N || (ns =? 83)%N)
         && (Nat.leb 2 (List.length lng) && Nat.leb (List.length lng) 7) && ((ew =? 69)%N || (ew =? 87)%N)) with true by lia.
    reflexivity.
Qed.

(** [par] tells the full widths apart from the abbreviated ones. *)
Lemma normalise_spec (abb : nat -> bool) (w : nat) s :
  Forall digit s -> s <> [] ->
  (forall n, n = List.length s -> abb n = true <-> Nat.even (n + w) = false) ->
  forall full, normalise abb s = Some full <->
    (Forall digit full /\ written_for full s /\ Nat.even (List.length full + w) = true).
Proof.
  intros D NE AB full. unfold normalise. rewrite utf8_len_ascii by (apply digits_ascii, D).
  pose proof (AB _ eq_refl) as AB'. destruct (abb (List.length s)) eqn:E.
  - assert (EV : Nat.even (List.length s + w) = false) by (apply AB'; reflexivity).
    destruct s as [|c s]; [congruence|]. destruct (N.eqb_spec c 48) as [->|N].
    + split; [discriminate|]. intros [F [[<-|[-> [c [t [X Y]]]]] P]]; [congruence|]. congruence.
    + split.
      * intros X; injection X as <-. split; [constructor; [unfold digit; lia | exact D]|].
        split; [right; split; [reflexivity | eauto]|].
        cbn [List.length] in *. rewrite Nat.add_succ_l, Nat.even_succ, <- Nat.negb_even, EV. reflexivity.
      * intros [F [[<-|[-> _]] P]]; [congruence | reflexivity].
  - assert (EV : Nat.even (List.length s + w) = true).
    { destruct (Nat.even (List.length s + w)); [reflexivity|]. destruct AB' as [_ H]. discriminate H; reflexivity. }
    split.
    + intros X; injection X as <-. split; [exact D|]. split; [left; reflexivity | exact EV].
    + intros [F [[<-|[-> _]] P]]; [reflexivity|]. cbn [List.length] in P.
      rewrite Nat.add_succ_l, Nat.even_succ, <- Nat.negb_even, EV in P. discriminate.
Qed.

Lemma abb_lat n : 1 <= n <= 6 -> (Nat.eqb n 1 || Nat.eqb n 3 || Nat.eqb n 5) = true <-> Nat.even (n + 0) = false.
Proof. intros H. do 7 (destruct n as [|n]; [cbn; split; congruence || lia|]). lia. Qed.
Lemma abb_lng n : 2 <= n <= 7 -> (Nat.eqb n 2 || Nat.eqb n 4 || Nat.eqb n 6) = true <-> Nat.even (n + 1) = false.
Proof. intros H. do 8 (destruct n as [|n]; [cbn; split; congruence || lia|]). lia. Qed.

Lemma written_length full w : written_for full w -> List.length w <= List.length full <= List.length w + 1.
Proof. intros [->|[-> _]]; cbn; lia. Qed.

Lemma convert_coordinate_spec d : ascii d ->
  exists o, convert_coordinate d = Ret o /\ forall f, o = Some f <-> coordinate_waypoint d f.
Proof.
  intros A. unfold convert_coordinate.
  destruct (coord_captures d) as [[[[lat ns] lng] ew]|] eqn:E.
  2:{ exists None. split; [reflexivity|]. intros f; split; [discriminate|].
      intros [wl [l [n [wg [g [e [k [-> [N1 [N2 [F1 [F2 [W1 [W2 [K [L1 [L2 _]]]]]]]]]]]]]]]]]. exfalso.
      assert (D1 : Forall digit wl) by (destruct W1 as [->|[-> _]]; [exact F1 | inversion F1; assumption]).
      assert (D2 : Forall digit wg) by (destruct W2 as [->|[-> _]]; [exact F2 | inversion F2; assumption]).
      pose proof (written_length _ _ W1). pose proof (written_length _ _ W2).
      assert (X : coord_captures (wl ++ [n] ++ wg ++ [e]) = Some (wl, n, wg, e)).
      { apply coord_captures_spec; [exact A|]. repeat split; try assumption; lia. }
      congruence. }
  apply coord_captures_spec in E; [|exact A]. destruct E as [-> [F1 [F2 [L1 [L2 [N1 N2]]]]]].
  assert (NE1 : lat <> []) by (intros ->; cbn in L1; lia).
  assert (NE2 : lng <> []) by (intros ->; cbn in L2; lia).
  pose proof (normalise_spec (fun n => Nat.eqb n 1 || Nat.eqb n 3 || Nat.eqb n 5) 0 lat F1 NE1
     ltac:(intros n ->; apply abb_lat; lia)) as NL.
  pose proof (normalise_spec (fun n => Nat.eqb n 2 || Nat.eqb n 4 || Nat.eqb n 6) 1 lng F2 NE2
     ltac:(intros n ->; apply abb_lng; lia)) as NG.
  (** any waypoint of this text has these parts *)
  assert (U : forall f, coordinate_waypoint (lat ++ [ns] ++ lng ++ [ew]) f -> exists fl fg k,
    Forall digit fl /\ Forall digit fg /\ written_for fl lat /\ written_for fg lng /\ 1 <= k <= 3 /\
    List.length fl = 2 * k /\ List.length fg = 2 * k + 1 /\
    f = mkFix (fl ++ [ns] ++ fg ++ [ew])
          (fmul (f64_of_Z (if (ew =? 69)%N then 1 else -1)) (degrees 3 fg),
           fmul (f64_of_Z (if (ns =? 78)%N then 1 else -1)) (degrees 2 fl))).
  { intros f [wl [l [n [wg [g [e [k [Ed [M1 [M2 [G1 [G2 [W1 [W2 [K [K1 [K2 Ef]]]]]]]]]]]]]]]]].
    assert (D1 : Forall digit wl) by (destruct W1 as [->|[-> _]]; [exact G1 | inversion G1; assumption]).
    assert (D2 : Forall digit wg) by (destruct W2 as [->|[-> _]]; [exact G2 | inversion G2; assumption]).
    pose proof (written_length _ _ W1). pose proof (written_length _ _ W2).
    assert (X : coord_captures (wl ++ [n] ++ wg ++ [e]) = Some (wl, n, wg, e)).
    { apply coord_captures_spec; [rewrite <- Ed; exact A|]. repeat split; try assumption; lia. }
    assert (Y : coord_captures (wl ++ [n] ++ wg ++ [e]) = Some (lat, ns, lng, ew)).
    { rewrite <- Ed. apply coord_captures_spec; [exact A|]. repeat split; try assumption; lia. }
    rewrite X in Y. injection Y as -> -> -> ->. exists l, g, k. auto 12. }
  destruct (normalise _ lat) as [fl|] eqn:El.
  2:{ exists None. split; [reflexivity|]. intros f; split; [discriminate|]. intros C. exfalso.
      destruct (U f C) as [fl [fg [k [D1 [D2 [W1 [W2 [K [K1 [K2 _]]]]]]]]]].
      assert (None = Some fl) by (apply NL; repeat split; auto; rewrite K1, Nat.add_0_r, Nat.even_mul; reflexivity).
      discriminate. }
  destruct (proj1 (NL fl) eq_refl) as [Dl [Wl Pl]].
  destruct (normalise _ lng) as [fg|] eqn:Eg.
  2:{ exists None. split; [reflexivity|]. intros f; split; [discriminate|]. intros C. exfalso.
      destruct (U f C) as [fl' [fg [k [D1 [D2 [W1 [W2 [K [K1 [K2 _]]]]]]]]]].
      assert (None = Some fg) by (apply NG; repeat split; auto; rewrite K2; replace (2 * k + 1 + 1) with (2 * (k + 1)) by lia; rewrite Nat.even_mul; reflexivity).
      discriminate. }
  destruct (proj1 (NG fg) eq_refl) as [Dg [Wg Pg]].
  rewrite !utf8_len_ascii by (apply digits_ascii; assumption).
  pose proof (written_length _ _ Wl) as Ll. pose proof (written_length _ _ Wg) as Lg.
  destruct (Nat.eqb_spec (List.length fg - List.length fl) 1) as [EQ|NQ]; cbn [negb].
  - rewrite Nat.add_0_r in Pl. apply Nat.even_spec in Pl. destruct Pl as [k Pl].
    assert (K : 1 <= k <= 3) by lia.
    rewrite (coord_value_spec 2 fl (k - 1)) by (try assumption; lia).
    rewrite (coord_value_spec 3 fg (k - 1)) by (try assumption; lia).
    eexists. split; [reflexivity|]. intros f. split.
    + intros X; injection X as <-. exists lat, fl, ns, lng, fg, ew, k.
      unfold sign_of. repeat split; try assumption; lia.
    + intros C. destruct (U f C) as [fl' [fg' [k' [D1 [D2 [W1 [W2 [K' [K1 [K2 ->]]]]]]]]]].
      assert (X1 : Some fl = Some fl') by (apply NL; repeat split; auto; rewrite K1, Nat.add_0_r, Nat.even_mul; reflexivity).
      assert (X2 : Some fg = Some fg') by (apply NG; repeat split; auto; rewrite K2; replace (2 * k' + 1 + 1) with (2 * (k' + 1)) by lia; rewrite Nat.even_mul; reflexivity).
      injection X1 as <-. injection X2 as <-. reflexivity.
  - exists None. split; [reflexivity|]. intros f; split; [discriminate|]. intros C. exfalso.
    destruct (U f C) as [fl' [fg' [k' [D1 [D2 [W1 [W2 [K' [K1 [K2 _]]]]]]]]]].
    assert (X1 : Some fl = Some fl') by (apply NL; repeat split; auto; rewrite K1, Nat.add_0_r, Nat.even_mul; reflexivity).
    assert (X2 : Some fg = Some fg') by (apply NG; repeat split; auto; rewrite K2; replace (2 * k' + 1 + 1) with (2 * (k' + 1)) by lia; rewrite Nat.even_mul; reflexivity).
    injection X1 as <-. injection X2 as <-. lia.
Qed.
