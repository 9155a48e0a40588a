(** Basic vocabulary of the model: text, decidable equality, association maps.

    - A Rust [String]/[&str] is modelled by the list of its Unicode code points.
    - A [HashMap<K, V>] is modelled by an association list; [get] finds the entry of a
      key and [put] is [HashMap::insert] (replace, or add when absent).  The order of
      the list carries no meaning: code that iterates over a hash map is modelled by a
      function of an explicit iteration order. *)
From Coq Require Export List Arith NArith ZArith Lia Bool String Ascii Permutation.
Export ListNotations.
Open Scope list_scope.

(** * Decidable equality *)
Class EqDec (A : Type) := eq_dec : forall x y : A, {x = y} + {x <> y}.

#[export] Instance EqDec_N : EqDec N := N.eq_dec.
#[export] Instance EqDec_Z : EqDec Z := Z.eq_dec.
#[export] Instance EqDec_nat : EqDec nat := Nat.eq_dec.
#[export] Instance EqDec_bool : EqDec bool := Bool.bool_dec.
#[export] Instance EqDec_string : EqDec string := String.string_dec.
#[export] Instance EqDec_list {A} `{EqDec A} : EqDec (list A) := list_eq_dec eq_dec.
#[export] Instance EqDec_prod {A B} `{EqDec A} `{EqDec B} : EqDec (A * B).
Proof.
  intros [a b] [a' b'].
  destruct (eq_dec a a') as [->|n]; [destruct (eq_dec b b') as [->|n]|].
  - left; reflexivity.
  - right; congruence.
  - right; congruence.
Defined.
#[export] Instance EqDec_option {A} `{EqDec A} : EqDec (option A).
Proof.
  intros [a|] [b|].
  - destruct (eq_dec a b) as [->|n]; [left; reflexivity | right; congruence].
  - right; congruence.
  - right; congruence.
  - left; reflexivity.
Defined.

Definition eqb {A} `{EqDec A} (x y : A) : bool := if eq_dec x y then true else false.

Lemma eqb_true {A} `{EqDec A} (x y : A) : eqb x y = true <-> x = y.
Proof. unfold eqb; destruct (eq_dec x y); split; congruence. Qed.
Lemma eqb_false {A} `{EqDec A} (x y : A) : eqb x y = false <-> x <> y.
Proof. unfold eqb; destruct (eq_dec x y); split; congruence. Qed.
Lemma eqb_refl {A} `{EqDec A} (x : A) : eqb x x = true.
Proof. apply eqb_true; reflexivity. Qed.

(** * Text *)
Definition text := list N.

(** Literal texts: an ASCII Coq string as a list of code points. *)
Fixpoint s2t (s : string) : text :=
  match s with
  | EmptyString => []
  | String c s => N_of_ascii c :: s2t s
  end.
Arguments s2t s%string.

(** UTF-8 length in bytes of a code point and of a text ([str::len]). *)
Definition utf8_len1 (c : N) : nat :=
  if (c <? 128)%N then 1 else if (c <? 2048)%N then 2
  else if (c <? 65536)%N then 3 else 4.
Definition utf8_len (s : text) : nat := fold_right (fun c n => utf8_len1 c + n) 0 s.

Definition is_digit (c : N) : bool := (48 <=? c)%N && (c <=? 57)%N.
Definition is_upper (c : N) : bool := (65 <=? c)%N && (c <=? 90)%N.
Definition is_lower (c : N) : bool := (97 <=? c)%N && (c <=? 122)%N.
Definition is_alpha (c : N) : bool := is_upper c || is_lower c.
Definition is_alnum (c : N) : bool := is_alpha c || is_digit c.
Definition is_ascii (c : N) : bool := (c <? 128)%N.

(** * Maps *)
Section Maps.
  Context {K V : Type} `{EqDec K}.

  Fixpoint get (k : K) (m : list (K * V)) : option V :=
    match m with
    | [] => None
    | (k', v) :: m => if eq_dec k k' then Some v else get k m
    end.

  (** [HashMap::insert] *)
  Fixpoint put (k : K) (v : V) (m : list (K * V)) : list (K * V) :=
    match m with
    | [] => [(k, v)]
    | (k', v') :: m => if eq_dec k k' then (k, v) :: m else (k', v') :: put k v m
    end.

  (** [HashMap::entry(k).or_insert(v)] as a statement *)
  Definition put_new (k : K) (v : V) (m : list (K * V)) : list (K * V) :=
    match get k m with Some _ => m | None => put k v m end.

  (** [HashMap::from_iter], [extend] *)
  Definition put_all (l : list (K * V)) (m : list (K * V)) : list (K * V) :=
    fold_left (fun m kv => put (fst kv) (snd kv) m) l m.
  Definition of_list (l : list (K * V)) : list (K * V) := put_all l [].

  Definition keys (m : list (K * V)) : list K := map fst m.

  Lemma get_put_same k v m : get k (put k v m) = Some v.
  Proof.
    induction m as [|[k' v'] m IH]; cbn.
    - destruct (eq_dec k k); congruence.
    - destruct (eq_dec k k') as [->|n]; cbn.
      + destruct (eq_dec k' k'); congruence.
      + destruct (eq_dec k k'); [congruence | exact IH].
  Qed.

  Lemma get_put_other k k' v m : k' <> k -> get k' (put k v m) = get k' m.
  Proof.
    intros n; induction m as [|[k2 v2] m IH]; cbn.
    - destruct (eq_dec k' k); congruence.
    - destruct (eq_dec k k2) as [->|n2]; cbn.
      + destruct (eq_dec k' k2); congruence.
      + destruct (eq_dec k' k2); [reflexivity | exact IH].
  Qed.

  Lemma get_put k k' v m : get k' (put k v m) = if eq_dec k' k then Some v else get k' m.
  Proof.
    destruct (eq_dec k' k) as [->|n]; [apply get_put_same | apply get_put_other; exact n].
  Qed.

  Lemma get_In k v m : get k m = Some v -> In (k, v) m.
  Proof.
    induction m as [|[k' v'] m IH]; cbn; [discriminate|].
    destruct (eq_dec k k') as [->|n]; intros E; [left; congruence | right; auto].
  Qed.

  Lemma get_None k m : get k m = None <-> ~ In k (keys m).
  Proof.
    induction m as [|[k' v'] m IH]; cbn; [tauto|].
    destruct (eq_dec k k') as [->|n].
    - split; [discriminate | intros n; exfalso; apply n; left; reflexivity].
    - rewrite IH. split; [intros a [->|b]; auto | tauto].
  Qed.

  Lemma get_Some_key k v m : get k m = Some v -> In k (keys m).
  Proof. intros E; apply get_In in E. apply (in_map fst) in E. exact E. Qed.

  Lemma In_get k v m : NoDup (keys m) -> In (k, v) m -> get k m = Some v.
  Proof.
    induction m as [|[k' v'] m IH]; cbn; [tauto|].
    intros ND [E|I].
    - injection E as -> ->. destruct (eq_dec k k); congruence.
    - inversion ND as [|? ? nI ND']; subst.
      destruct (eq_dec k k') as [->|n]; [|auto].
      exfalso; apply nI. apply (in_map fst) in I. exact I.
  Qed.

  Lemma In_key_get k m : In k (keys m) -> exists v, get k m = Some v.
  Proof.
    intros I; destruct (get k m) as [v|] eqn:E; [eauto|].
    apply get_None in E; contradiction.
  Qed.

  Lemma keys_put_In k v m k' : In k' (keys (put k v m)) <-> k' = k \/ In k' (keys m).
  Proof.
    induction m as [|[k2 v2] m IH]; cbn; [intuition congruence|].
    destruct (eq_dec k k2) as [->|n]; cbn; [intuition congruence|].
    rewrite IH. intuition congruence.
  Qed.

  Lemma NoDup_put k v m : NoDup (keys m) -> NoDup (keys (put k v m)).
  Proof.
    induction m as [|[k2 v2] m IH]; cbn; intros ND.
    - constructor; [tauto | constructor].
    - inversion ND as [|? ? nI ND']; subst.
      destruct (eq_dec k k2) as [->|n]; cbn; constructor; auto.
      rewrite keys_put_In. intros [E|I]; [congruence | contradiction].
  Qed.

  Lemma NoDup_put_all l m : NoDup (keys m) -> NoDup (keys (put_all l m)).
  Proof.
    revert m; induction l as [|[k v] l IH]; cbn; intros m ND; [exact ND|].
    apply IH, NoDup_put, ND.
  Qed.

  Lemma NoDup_of_list l : NoDup (keys (of_list l)).
  Proof. apply NoDup_put_all; constructor. Qed.

  Lemma get_put_new k v k' m :
    get k' (put_new k v m) =
    match get k' m with Some x => Some x | None => if eq_dec k' k then Some v else None end.
  Proof.
    unfold put_new. destruct (get k m) as [x|] eqn:E.
    - destruct (get k' m) eqn:E'; [reflexivity|].
      destruct (eq_dec k' k); congruence.
    - rewrite get_put. destruct (eq_dec k' k) as [->|n]; [rewrite E; reflexivity|].
      destruct (get k' m); reflexivity.
  Qed.

  Lemma NoDup_put_new k v m : NoDup (keys m) -> NoDup (keys (put_new k v m)).
  Proof. unfold put_new; destruct (get k m); [auto | apply NoDup_put]. Qed.

  (** The value of [k] after inserting the pairs of [l] in order into [m]: the last
      pair of [l] with key [k] decides. *)
  Lemma get_put_all k l m :
    get k (put_all l m) =
    match get k (rev l) with Some v => Some v | None => get k m end.
  Proof.
    revert m; induction l as [|[k' v'] l IH]; cbn; intros m; [reflexivity|].
    rewrite IH. clear IH.
    assert (A : forall a b, get k (a ++ b) =
              match get k a with Some v => Some v | None => get k b end).
    { intros a b; induction a as [|[ka va] a IHa]; cbn; [reflexivity|].
      destruct (eq_dec k ka); [reflexivity | exact IHa]. }
    rewrite A. destruct (get k (rev l)); [reflexivity|].
    rewrite get_put. cbn. destruct (eq_dec k k'); reflexivity.
  Qed.

  Lemma get_of_list k l : get k (of_list l) = get k (rev l).
  Proof. unfold of_list; rewrite get_put_all. destruct (get k (rev l)); reflexivity. Qed.

  Lemma get_app k a b :
    get k (a ++ b) = match get k a with Some v => Some v | None => get k b end.
  Proof.
    induction a as [|[ka va] a IHa]; cbn; [reflexivity|].
    destruct (eq_dec k ka); [reflexivity | exact IHa].
  Qed.

  Lemma get_perm k m m' :
    NoDup (keys m) -> Permutation m m' -> get k m = get k m'.
  Proof.
    intros ND P.
    assert (ND' : NoDup (keys m')).
    { eapply Permutation_NoDup; [apply Permutation_map, P | exact ND]. }
    destruct (get k m) as [v|] eqn:E.
    - symmetry; apply In_get; [exact ND'|].
      eapply Permutation_in; [exact P | apply get_In, E].
    - symmetry; apply get_None. apply get_None in E. intros I; apply E.
      eapply Permutation_in; [|exact I]. apply Permutation_sym, Permutation_map, P.
  Qed.
End Maps.

(** * Multimaps: the crate multimap's [MultiMap<K, V>] is a [HashMap<K, Vec<V>>]. *)
Section MultiMaps.
  Context {K V : Type} `{EqDec K}.

  Definition mget_vec (k : K) (m : list (K * list V)) : list V :=
    match get k m with Some l => l | None => [] end.

  (** [MultiMap::insert]: append to the key's vector. *)
  Definition mpush (k : K) (v : V) (m : list (K * list V)) : list (K * list V) :=
    put k (mget_vec k m ++ [v]) m.

  (** [MultiMap::get]: the first value of the key. *)
  Definition mget (k : K) (m : list (K * list V)) : option V :=
    match get k m with Some l => hd_error l | None => None end.

  Definition mpush_all (l : list (K * V)) (m : list (K * list V)) : list (K * list V) :=
    fold_left (fun m kv => mpush (fst kv) (snd kv) m) l m.

  Lemma mget_vec_push k v k' m :
    mget_vec k' (mpush k v m) = if eq_dec k' k then mget_vec k m ++ [v] else mget_vec k' m.
  Proof.
    unfold mget_vec at 1, mpush. rewrite get_put.
    destruct (eq_dec k' k); reflexivity.
  Qed.

  (** The values inserted under [k], in order. *)
  Definition values_of (k : K) (l : list (K * V)) : list V :=
    map snd (filter (fun kv => eqb k (fst kv)) l).

  Lemma mget_vec_push_all k l m :
    mget_vec k (mpush_all l m) = mget_vec k m ++ values_of k l.
  Proof.
    revert m; induction l as [|[k' v'] l IH]; cbn; intros m.
    - rewrite app_nil_r; reflexivity.
    - rewrite IH, mget_vec_push. unfold values_of; cbn. unfold eqb.
      destruct (eq_dec k k') as [->|n]; cbn; [rewrite <- app_assoc|]; reflexivity.
  Qed.

  Lemma NoDup_mpush_all l m : NoDup (keys m) -> NoDup (keys (mpush_all l m)).
  Proof.
    revert m; induction l as [|[k' v'] l IH]; cbn; intros m ND; [exact ND|].
    apply IH, NoDup_put, ND.
  Qed.

  Lemma mget_hd k m : mget k m = hd_error (mget_vec k m).
  Proof. unfold mget, mget_vec; destruct (get k m); reflexivity. Qed.
End MultiMaps.

(** Results of code that can fail with an error or panic. *)
Inductive outcome (A : Type) := Ret (a : A) | Err | Panic.
Arguments Ret {A} a.  Arguments Err {A}.  Arguments Panic {A}.

(** Decidable absence of duplicates. *)
Fixpoint nodupb {A} `{EqDec A} (l : list A) : bool :=
  match l with
  | [] => true
  | x :: l => negb (existsb (eqb x) l) && nodupb l
  end.

Lemma nodupb_NoDup {A} `{EqDec A} (l : list A) : nodupb l = true -> NoDup l.
Proof.
  induction l as [|x l IH]; cbn [nodupb]; intros E; [constructor|].
  apply andb_prop in E; destruct E as [E1 E2]. constructor; [|auto].
  intros I. apply negb_true_iff in E1.
  assert (T : existsb (eqb x) l = true) by (apply existsb_exists; exists x; split; [exact I | apply eqb_refl]).
  congruence.
Qed.
