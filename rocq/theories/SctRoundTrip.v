(** A whole .sct file, as written and read. *)
From Coq Require Import Reals ZifyBool ZifyN ZifyNat.
From Verif Require Import Base Unicode Num NumProofs Float FloatParse Dms SpecDms DmsProofs DmsWide Colours SpecColours ColoursProofs Locations SctData SctItems SctWrite Isec IsecWrite Peg Grammars SpecPeg PegProofs PegLang PegForward PegSkip Trees SpecText TextProofs SctParse SpecLines SpecSctWrite SctForward SctNames SctLines SctItemsRead.
Local Open Scope string_scope.
Local Open Scope list_scope.

(** ** Sorting *)
Lemma insert_perm {A} (x : text * A) l : Permutation (x :: l) (insert_sorted x l).
Proof.
  induction l as [|y l IH]; [apply Permutation_refl|]. cbn [insert_sorted]. destruct (text_leb (fst x) (fst y)); [apply Permutation_refl|].
  eapply perm_trans; [apply perm_swap|]. apply perm_skip, IH.
Qed.
Lemma sort_perm {A} (l : list (text * A)) : Permutation l (sort_by_key l).
Proof.
  induction l as [|x l IH]; [apply Permutation_refl|]. cbn [sort_by_key fold_right]. fold (sort_by_key l).
  eapply perm_trans; [apply perm_skip, IH | apply insert_perm].
Qed.
Lemma sorted_perm {A} (key : A -> text) l : Permutation l (sorted_by key l).
Proof.
  unfold sorted_by. eapply perm_trans; [|apply Permutation_map, sort_perm]. rewrite map_map. cbn [snd]. rewrite map_id. apply Permutation_refl.
Qed.
Lemma sorted_groups {A} (key : A -> text) l n : filter (fun x => eqb (key x) n) (sorted_by key l) = filter (fun x => eqb (key x) n) l.
Proof.
  assert (FM : forall (m : list (text * A)), Forall (fun kv => fst kv = key (snd kv)) m -> filter (fun x => eqb (key x) n) (map snd m) = map snd (at_key n m)).
  { induction 1 as [|[k v] m E H IH]; [reflexivity|]. cbn [map filter snd fst at_key] in *. unfold at_key in *. cbn [filter fst]. subst k. rewrite IH.
    assert (S : eqb n (key v) = eqb (key v) n) by (destruct (eqb n (key v)) eqn:X, (eqb (key v) n) eqn:Y; try reflexivity;
      [rewrite eqb_true in X; rewrite X, eqb_refl in Y; discriminate | rewrite eqb_true in Y; rewrite Y, eqb_refl in X; discriminate]).
    rewrite S. destruct (eqb (key v) n); reflexivity. }
  assert (K : Forall (fun kv => fst kv = key (snd kv)) (map (fun x => (key x, x)) l)) by (induction l; constructor; auto).
  unfold sorted_by. rewrite FM; [|eapply Permutation_Forall; [apply sort_perm | exact K]]. rewrite sort_key, <- FM by exact K.
  rewrite map_map. cbn [snd]. rewrite map_id. reflexivity.
Qed.

(** ** Sections *)
Lemma items_trail {A} e (F : text -> Prop) (f : tree -> outcome (option A)) h : firmer h -> F h -> ko G NonAtomic e h ->
  forall xs ys, Forall2 (item e F f) xs ys -> forall t, trail xs t -> forall k, break k -> forall z, tail z ->
  exists k' trs, break k' /\ items e (z ++ t ++ k ++ h) (k' ++ h) trs /\ Forall2 (reads f) trs ys.
Proof.
  intros FH F0 KO xs ys H. induction H as [|x y xs ys I H IH]; intros t T k K z Z; inversion T as [|s x0 xs0 t0 S T0]; subst.
  - exists (z ++ k), []. split; [apply Z, K|]. split; [|constructor]. cbn [app]. rewrite app_assoc. apply items_nil; [apply break_firm, Z, K|].
    apply nl_ko; [apply Z, K | exact FH | exact KO].
  - destruct I as [I1 I2 [core [z' [-> [Z' I3]]]]]. destruct (IH t0 T0 k K z' Z') as [k' [trs [K' [R V]]]].
    assert (E : exists k0 h0, break k0 /\ firmer h0 /\ F h0 /\ z' ++ t0 ++ k ++ h = k0 ++ h0).
    { destruct H as [|x2 y2 xs ys [J1 J2 _] H]; inversion T0 as [|s2 x20 xs20 t20 S2 T20]; subst.
      - exists (z' ++ k), h. split; [apply Z', K|]. split; [exact FH|]. split; [exact F0|]. cbn [app]. apply app_assoc.
      - exists (z' ++ s2), (x2 ++ t20 ++ k ++ h). split; [apply Z', S2|]. split; [apply J1|]. split; [apply J2|]. rewrite <- !app_assoc. reflexivity. }
    destruct E as [k0 [h0 [B0 [FF0 [F00 E]]]]]. destruct (I3 _ _ B0 FF0 F00) as [tr [RT O]]. rewrite <- E in O.
    exists k', (tr :: trs). split; [exact K'|]. split; [|constructor; assumption].
    replace (z ++ (s ++ (core ++ z') ++ t0) ++ k ++ h) with ((z ++ s) ++ core ++ z' ++ t0 ++ k ++ h) by (rewrite <- !app_assoc; reflexivity).
    apply (items_cons e (z ++ s) (core ++ z' ++ t0 ++ k ++ h) (z' ++ t0 ++ k ++ h) (k' ++ h) [tr] trs); [apply Z, S | | exact O | exact R].
    rewrite app_assoc. apply I1.
Qed.
(** the first item after the line break of the heading, the others after [s] *)
Definition body (s : text) (xs : list text) : text := match xs with [] => [] | x :: l => LF ++ x ++ after s l end.
Lemma trail_body s xs : break s -> trail xs (body s xs).
Proof.
  intros S. destruct xs as [|x l]; [constructor|]. cbn [body]. apply (trail_cons LF x l (after s l)); [apply (break_one []); constructor|].
  induction l as [|y l IH]; [constructor|]. unfold after. cbn [map List.concat]. fold (after s l). rewrite <- app_assoc. apply trail_cons; assumption.
Qed.
Lemma break_lf k : break k -> break (LF ++ k).
Proof. intros K. apply (break_more [] k); [constructor | exact K]. Qed.
Lemma lf_break : break LF.
Proof. apply (break_one []). constructor. Qed.
Lemma body_text s xs k : break k -> exists k', break k' /\ LF ++ join s xs ++ k = body s xs ++ k'.
Proof.
  intros K. destruct xs as [|x l]; [exists (LF ++ k); split; [apply break_lf, K | reflexivity]|]. exists k. split; [exact K|].
  rewrite join_after. cbn [body]. rewrite <- !app_assoc. reflexivity.
Qed.

Definition section_reads {A} (f : tree -> outcome (option A)) (n : string) (tr : tree) (ys : list A) : Prop :=
  rule_of tr = n /\ forall colours, entries f (kids_of tr) colours = Ret (ys, colours).
Lemma section_ok {A} n hd head e0 (F : text -> Prop) (f : tree -> outcome (option A)) xs ys t k h :
  get n G = Some (sct_section hd e0) -> body_atom n KNormal NonAtomic = NonAtomic -> (forall r, okt NonAtomic hd (head ++ r) r []) ->
  Forall2 (item (&"colour_definition" // e0) F f) xs ys -> trail xs t -> break k -> firmer h -> F h -> ko G NonAtomic (&"colour_definition" // e0) h ->
  exists k' tr, break k' /\ section_reads f n tr ys /\ okt NonAtomic (Call n) (head ++ t ++ k ++ h) (k' ++ h) [tr].
Proof.
  intros EG BA HD H TR K FH F0 KO. destruct (items_trail _ F f h FH F0 KO xs ys H t TR k K [] tail_nil) as [k' [trs [K' [I V]]]]. cbn [app] in I.
  destruct (okt_normal n _ EG BA (head ++ t ++ k ++ h) (k' ++ h) ([] ++ trs)) as [c [_ O]].
  - eapply okt_seq0; [apply HD | eapply items_firm, I | apply items_star, I].
  - exists k', (T n c trs). split; [exact K'|]. split; [|exact O]. split; [reflexivity|]. intros colours. apply entries_read, V.
Qed.

(** ** Colour definitions *)
Lemma i32_text n : (n < 2 ^ 24)%N -> parse_i32 (fmt_uint 10 n) = Some (Z.of_N n).
Proof.
  intros H. unfold parse_i32, parse_int. pose proof (digits_fmt_uint 10 n ltac:(lia) ltac:(lia)) as D.
  pose proof (pad_fmt_chars 0 10 n (fun c => c <> 43%N /\ c <> 45%N) ltac:(lia)) as P.
  assert (Q : Forall (fun c => c <> 43%N /\ c <> 45%N) (fmt_uint 10 n)).
  { apply P. intros d L. unfold digit_char. destruct (d <? 10)%N; lia. }
  pose proof (fmt_uint_nonnil 10 n) as NN. destruct (fmt_uint 10 n) as [|c r]; [congruence|]. inversion Q as [|? ? [Q1 Q2] _]; subst.
  destruct (N.eqb_spec c 43); [contradiction|]. destruct (N.eqb_spec c 45); [contradiction|]. unfold digits1_val. rewrite D.
  replace ((i32_min <=? Z.of_N n)%Z && (Z.of_N n <=? i32_max)%Z) with true by (unfold i32_min, i32_max; lia). reflexivity.
Qed.
Lemma fmt_digits n : SpecText.digits (fmt_uint 10 n).
Proof. pose proof (digits_word 0 n) as D. unfold SpecDms.digits, pad_left in D. cbn [repeat Nat.sub app] in D. exact D. Qed.
Lemma colour_tok x k h : good_colour x -> break k -> exists tr, is_rule tr "colour_definition" = true /\ parse_colour_definition tr = Ret (Some x) /\
  okt NonAtomic &"colour_definition" (colour_fmt x ++ k ++ h) (k ++ h) [tr].
Proof.
  destruct x as [name c]. intros [W [WF A]] K. cbn [fst snd] in *. destruct (to_from_euroscope c WF A) as [R E].
  set (num := fmt_uint 10 (Z.to_N (to_euroscope c))).
  pose proof (okt_normal "colour_definition" _ eq_refl eq_refl (colour_fmt (name, c) ++ k ++ h) (k ++ h)) as KK. edestruct KK as [cc [_ OO]].
  - unfold colour_fmt. cbn [fst snd]. fold num. change (s2t "#define ") with (s2t "#define" ++ s2t " "). rewrite <- !app_assoc.
    seqb (s2t " "); [apply okt_str | apply spaced_one | apply colour_firmer, W|].
    seqb ([9]%N); [eapply tok_plus; [discriminate | reflexivity | apply colour_one | exact W | reflexivity] | repeat constructor | apply digits_firmer, fmt_digits|].
    apply pos_integer_tok; [discriminate | apply fmt_digits | apply break_stops; [exact K | reflexivity]].
  - eexists. split; [|split; [|exact OO]]; [reflexivity|]. unfold parse_colour_definition. cbn [kids_of next obind app text_of]. unfold num. rewrite i32_text by lia.
    cbn [unwrap obind]. rewrite Z2N.id by lia. rewrite E. reflexivity.
Qed.
Lemma colour_items cs t k h : Forall good_colour cs -> trail (map colour_fmt cs) t -> break k -> firmer h -> ko G NonAtomic &"colour_definition" h ->
  exists trs, items &"colour_definition" (t ++ k ++ h) (k ++ h) trs /\
    Forall2 (fun tr x => is_rule tr "colour_definition" = true /\ parse_colour_definition tr = Ret (Some x)) trs cs.
Proof.
  intros H T K FH KO. revert t T. induction H as [|x cs X H IH]; intros t T; cbn [map] in T; inversion T as [|s x0 xs0 t0 S T0]; subst.
  - exists []. split; [|constructor]. apply items_nil; [apply break_firm, K | apply nl_ko; assumption].
  - destruct (IH _ T0) as [trs [I V]].
    assert (E : exists k0 h0, break k0 /\ t0 ++ k ++ h = k0 ++ h0).
    { destruct T0 as [|k1 ? ? t1 B1 _]; [exists k, h; auto | exists k1; eexists; split; [exact B1 | rewrite <- !app_assoc; reflexivity]]. }
    destruct E as [k0 [h0 [B0 E]]]. destruct (colour_tok x k0 h0 X B0) as [tr [R [P O]]]. rewrite <- E in O.
    exists (tr :: trs). split; [|constructor; auto]. replace ((s ++ colour_fmt x ++ t0) ++ k ++ h) with (s ++ colour_fmt x ++ t0 ++ k ++ h) by (rewrite <- !app_assoc; reflexivity).
    apply (items_cons _ s _ (t0 ++ k ++ h) (k ++ h) [tr] trs); [exact S | split; [apply firm_char; (reflexivity || discriminate) | reflexivity] | exact O | exact I].
Qed.

(** ** The information section *)
Lemma part_spelt v (lat : bool) : finite v -> (Rabs (real_value v) < 256)%R -> exists t y, dms_fmt v lat = Some t /\ near_value v (dms_value y) /\ (forall r, firmer (t ++ r)) /\
  forall r, stops number_stop r -> exists tr, is_rule tr "colour_definition" = false /\ coord_part tr = Ret y /\ okt NonAtomic &"sct_coord_part" (t ++ r) r [tr].
Proof.
  intros FI B. destruct (write_read v lat FI B) as [h [deg [min [ms [y [L [W [P C]]]]]]]]. exists (coordinate_text h deg min ms), y.
  assert (LL : letter h) by (destruct lat; [left | right]; exact L).
  split; [exact W|]. split; [exact C|]. split.
  - intros r. destruct LL as [[-> | ->]|[-> | ->]]; (split; [apply firm_char; (reflexivity || discriminate) | reflexivity]).
  - intros r S. destruct (part_tok NonAtomic h deg min ms r LL S) as [c [_ O]]. eexists. split; [|split; [|exact O]]; [reflexivity|].
    unfold coord_part. cbn [kids_of next obind text_of]. unfold parse_part in P. destruct (hemi_from (s2t h)); try discriminate.
    destruct (parse_u16 (SpecDms.digits 3 deg)); try discriminate. destruct (parse_u8 (SpecDms.digits 2 min)); try discriminate.
    destruct (parse_f64 (seconds_text ms)); try discriminate. cbn [unwrap obind]. injection P as <-. reflexivity.
Qed.
Lemma sector_tok w u : sector_name w -> okt NonAtomic &"sector_name" (w ++ 10%N :: u) (10%N :: u) [T "sector_name" w []].
Proof. intros [W _]. eapply tok_plus; [discriminate | reflexivity | apply sector_one | exact W | vm_compute; reflexivity]. Qed.
Lemma sector_firmer w u : sector_name w -> firmer (w ++ 10%N :: u).
Proof.
  intros [[N F] [S _]]. split; [apply solid_firm; [exact S | reflexivity | discriminate | discriminate]|].
  destruct F as [|c w C F]; [congruence|]. cbn [app stops]. destruct (is_nl c) eqn:X; [|reflexivity]. exfalso. unfold is_nl in X. apply orb_prop in X.
  destruct X as [X|X]; apply N.eqb_eq in X; subst c; vm_compute in C; discriminate C.
Qed.
Lemma sector_ko w u : sector_name w -> ko G NonAtomic &"colour_definition" (w ++ 10%N :: u).
Proof.
  intros [[N _] [_ S]]. eapply ko_call; [reflexivity|]. apply ko_seq1, ko_str. intros r E. apply S.
  assert (D : Forall (fun c => c <> 10%N) (s2t "#define")) by (repeat constructor; discriminate). revert D E. generalize (s2t "#define"). clear.
  intros x D. revert x D. induction w as [|c w IH]; intros [|y x] D E; cbn [app] in E; try (exists []; reflexivity).
  - injection E as <- _. inversion D; subst. congruence.
  - exists (c :: w). reflexivity.
  - injection E as <- E. inversion D; subst. destruct (IH x H2 E) as [z ->]. exists z. reflexivity.
Qed.
Lemma callsign_firmer w r : callsign w -> firmer (w ++ r).
Proof.
  intros W. eapply word_firmer; [exact W|]. intros c C. unfold is_alnum, is_alpha, is_upper, is_lower, is_digit in C. unfold dense, space, is_nl. lia.
Qed.
Lemma info_colours trs cs : Forall2 (fun tr x => is_rule tr "colour_definition" = true /\ parse_colour_definition tr = Ret (Some x)) trs cs ->
  forall info i y colours, info_lines trs info i y colours = Ret (info, put_all cs colours).
Proof.
  induction 1 as [|tr [n c] trs cs [R P] _ IH]; intros info i y colours; [reflexivity|]. cbn [info_lines]. rewrite R. unfold store_colour. rewrite P. cbn [obind].
  rewrite IH. reflexivity.
Qed.
Lemma info_step p ts info i y colours info' y' : is_rule p "colour_definition" = false -> info_line info i y p = Ret (info', y') ->
  info_lines (p :: ts) info i y colours = info_lines ts info' (S i) y' colours.
Proof. intros R E. cbn [info_lines]. rewrite R, E. reflexivity. Qed.
Lemma info_ok show i cs t k h : good_info show i -> Forall good_colour cs -> trail (map colour_fmt cs) t -> break k -> firmer h -> ko G NonAtomic &"colour_definition" h ->
  exists txt i' tr, info_fmt show i = Some (txt ++ LF) /\ near_info i i' /\ rule_of tr = "info_section" /\
    (forall colours, parse_info_section tr colours = Ret (i', put_all cs colours)) /\ (exists u, txt = s2t "[INFO]" ++ u) /\
    okt NonAtomic (Call "info_section") (txt ++ t ++ k ++ h) (k ++ h) [tr].
Proof.
  destruct i as [name sign ap [cx cy] a b c d]. intros [NM [CS [AP [[FX [FY [BX BY]]] [[NA PA] [[NB PB] [[NC PC] [ND PD]]]]]]]] GC TR K FH KO.
  cbn [in_name in_callsign in_airport in_centre in_mi_lat in_mi_lng in_magvar in_scale fst snd] in *.
  destruct (part_spelt cy true FY BY) as [ty [y [WY [CY [FRY RY]]]]]. destruct (part_spelt cx false FX BX) as [tx [x [WX [CX [FRX RX]]]]].
  destruct (colour_items cs t k h GC TR K FH KO) as [trs [I V]].
  set (rest := t ++ k ++ h) in *.
  assert (FR : exists u, rest = 10%N :: u).
  { unfold rest. destruct TR as [|k1 ? ? ? B1 _]; [destruct (break_hd k K) as [u ->] | destruct (break_hd k1 B1) as [u ->]]; eexists; reflexivity. }
  set (txt := s2t "[INFO]" ++ LF ++ name ++ LF ++ sign ++ LF ++ ap ++ LF ++ ty ++ LF ++ tx ++ LF ++ show a ++ LF ++ show b ++ LF ++ show c ++ LF ++ show d).
  assert (FM : info_fmt show (mkSctInfo name sign ap (cx, cy) a b c d) = Some (txt ++ LF)).
  { unfold info_fmt, lat_fmt, lng_fmt, px, py. cbn [in_name in_callsign in_airport in_centre in_mi_lat in_mi_lng in_magvar in_scale fst snd].
    rewrite WY, WX. unfold txt. rewrite <- !app_assoc. reflexivity. }
  edestruct (RY (LF ++ tx ++ LF ++ show a ++ LF ++ show b ++ LF ++ show c ++ LF ++ show d ++ rest)) as [tr4 [R4 [V4 O4]]]; [reflexivity|].
  edestruct (RX (LF ++ show a ++ LF ++ show b ++ LF ++ show c ++ LF ++ show d ++ rest)) as [tr5 [R5 [V5 O5]]]; [reflexivity|].
  assert (SR : stops number_stop rest) by (destruct FR as [u ->]; reflexivity).
  assert (FIR : firm rest) by (destruct FR as [u ->]; apply firm_lf).
  pose proof (okt_normal "info_section" _ eq_refl eq_refl (txt ++ rest) (k ++ h)) as KK. edestruct KK as [cc [_ OO]].
  - unfold txt. rewrite <- !app_assoc.
    eapply okt_seq0; [apply okt_str | apply firm_lf|].
    eapply okt_seq0; [apply okt_opt_no, ko_then1; apply (nl_ko _ LF); [apply lf_break | apply sector_firmer, NM | apply sector_ko, NM] | apply firm_lf|].
    apply (nl_then _ LF); [apply lf_break | apply sector_firmer, NM|].
    eapply okt_seq0; [apply sector_tok, NM | apply firm_lf|].
    apply (nl_then _ LF); [apply lf_break | apply callsign_firmer, CS|].
    eapply okt_seq0; [eapply tok_plus; [discriminate | reflexivity | apply callsign_one | exact CS | reflexivity] | apply firm_lf|].
    apply (nl_then _ LF); [apply lf_break | apply designator_firmer, AP|].
    eapply okt_seq0; [apply designator_tok; [discriminate | exact AP | reflexivity] | apply firm_lf|].
    apply (nl_then _ LF); [apply lf_break | apply FRY|].
    eapply okt_seq0; [exact O4 | apply firm_lf|].
    apply (nl_then _ LF); [apply lf_break | apply FRX|].
    eapply okt_seq0; [exact O5 | apply firm_lf|].
    apply (nl_then _ LF); [apply lf_break | apply numeral_firmer, NA|].
    eapply okt_seq0; [apply decimal_tok; [discriminate | exact NA | reflexivity] | apply firm_lf|].
    apply (nl_then _ LF); [apply lf_break | apply numeral_firmer, NB|].
    eapply okt_seq0; [apply decimal_tok; [discriminate | exact NB | reflexivity] | apply firm_lf|].
    apply (nl_then _ LF); [apply lf_break | apply numeral_firmer, NC|].
    eapply okt_seq0; [apply decimal_tok; [discriminate | exact NC | reflexivity] | apply firm_lf|].
    eapply okt_seq0; [apply okt_opt; apply (nl_then _ LF); [apply lf_break | apply numeral_firmer, ND | apply decimal_tok; [discriminate | exact ND | exact SR]] | exact FIR|].
    apply items_star, I.
  - exists txt, (mkSctInfo name sign ap (from_deg_min_sec y x) a b c d). eexists. split; [exact FM|]. split.
    + unfold near_info. cbn [in_name in_callsign in_airport in_centre in_mi_lat in_mi_lng in_magvar in_scale]. repeat split; auto.
    + split; [|split; [|split; [|exact OO]]]; [reflexivity| |unfold txt; eexists; reflexivity]. intros colours. unfold parse_info_section. cbn [kids_of app].
      unfold info_default.
      do 3 (erewrite info_step; [| reflexivity | reflexivity]).
      erewrite info_step; [| exact R4 | cbn [info_line]; rewrite V4; reflexivity]. erewrite info_step; [| exact R5 | cbn [info_line]; rewrite V5; reflexivity].
      erewrite info_step; [| reflexivity | cbn [info_line text_of]; rewrite PA; reflexivity]. erewrite info_step; [| reflexivity | cbn [info_line text_of]; rewrite PB; reflexivity].
      erewrite info_step; [| reflexivity | cbn [info_line text_of]; rewrite PC; reflexivity]. erewrite info_step; [| reflexivity | cbn [info_line text_of]; rewrite PD; reflexivity].
      apply (info_colours trs cs V).
Qed.

(** ** A written section *)
Definition joint (k : text) : Prop := k = [] \/ break k.
Definition spelt_section {A} (n : string) (head : string) (g : tree -> outcome (option A)) (ok_next : text -> Prop) (txt : text) (ys : list A) : Prop :=
  (exists u, txt = s2t head ++ LF ++ u) /\
  forall k h, joint k -> firmer h -> ok_next h -> exists k' tr, break k' /\ section_reads g n tr ys /\ okt NonAtomic (Call n) (txt ++ k ++ h) (k' ++ h) [tr].
Lemma joint_lf k : joint k -> break (LF ++ k).
Proof. intros [-> |K]; [apply lf_break | apply break_lf, K]. Qed.
Lemma spell_section {A} n hd head e0 (F : text -> Prop) (g : tree -> outcome (option A)) s xs ys :
  get n G = Some (sct_section hd e0) -> body_atom n KNormal NonAtomic = NonAtomic -> (forall r, okt NonAtomic hd (s2t head ++ r) r []) -> break s ->
  Forall2 (item (&"colour_definition" // e0) F g) xs ys ->
  spelt_section n head g (fun h => F h /\ ko G NonAtomic (&"colour_definition" // e0) h) (s2t head ++ LF ++ join s xs ++ LF) ys.
Proof.
  intros EG BA HD S H. split; [eexists; reflexivity|]. intros k h K FH [F0 KO]. destruct (body_text s xs (LF ++ k) (joint_lf k K)) as [k0 [B0 E]].
  replace ((s2t head ++ LF ++ join s xs ++ LF) ++ k ++ h) with (s2t head ++ body s xs ++ k0 ++ h).
  - eapply section_ok; try eassumption. apply trail_body, S.
  - rewrite (app_assoc (body s xs)), <- E, <- !app_assoc. reflexivity.
Qed.
Lemma written_all {A} (P : A -> Prop) (f : A -> option text) (R : A -> A -> Prop) e (F : text -> Prop) (g : tree -> outcome (option A)) :
  (forall x, P x -> exists t y, f x = Some t /\ R x y /\ item e F g t y) ->
  forall l, Forall P l -> exists xs ys, all_some f l = Some xs /\ Forall2 R l ys /\ Forall2 (item e F g) xs ys.
Proof.
  intros H l L. induction L as [|x l X L [xs [ys [E [HR HI]]]]]; [exists [], []; repeat split; constructor|].
  destruct (H x X) as [t [y [EX [RX IX]]]]. exists (t :: xs), (y :: ys). split; [cbn [all_some]; rewrite EX, E; reflexivity|]. split; constructor; assumption.
Qed.
Lemma Forall2_flip {A B} (P : A -> B -> Prop) l l' : Forall2 P l l' -> Forall2 (fun b a => P a b) l' l.
Proof. induction 1; constructor; auto. Qed.
Lemma section_spelt {A} (P : A -> Prop) (f : A -> option text) (R : A -> A -> Prop) n hd head e0 (F : text -> Prop) (g : tree -> outcome (option A)) :
  (forall x, P x -> exists t y, f x = Some t /\ R x y /\ item (&"colour_definition" // e0) F g t y) ->
  get n G = Some (sct_section hd e0) -> body_atom n KNormal NonAtomic = NonAtomic -> (forall r, okt NonAtomic hd (s2t head ++ r) r []) ->
  forall l, Forall P l -> exists txt ys, section_fmt head f l = Some txt /\ shuffled R l ys /\
    spelt_section n head g (fun h => F h /\ ko G NonAtomic (&"colour_definition" // e0) h) txt ys.
Proof.
  intros H EG BA HD l L. destruct (written_all P f R _ F g H l L) as [xs [ys [E [HR HI]]]].
  destruct (Permutation_Forall2 (sorted_perm (fun x => x) xs) HI) as [ys1 [P1 HI1]].
  destruct (Permutation_Forall2 P1 (Forall2_flip _ _ _ HR)) as [l1 [P2 HR1]].
  exists (s2t head ++ LF ++ join LF (sorted xs) ++ LF), ys1. split; [unfold section_fmt; rewrite E; reflexivity|].
  split; [exists l1; split; [exact P2 | apply Forall2_flip, HR1]|]. eapply spell_section; try eassumption; [apply lf_break].
Qed.
Lemma listing_spelt {A} (P : A -> Prop) (f : A -> option text) (key : A -> text) (R : A -> A -> Prop) s n hd head e0 (F : text -> Prop) (g : tree -> outcome (option A)) :
  (forall x, P x -> exists t y, f x = Some t /\ R x y /\ item (&"colour_definition" // e0) F g t y) ->
  get n G = Some (sct_section hd e0) -> body_atom n KNormal NonAtomic = NonAtomic -> (forall r, okt NonAtomic hd (s2t head ++ r) r []) -> break s ->
  forall l, Forall P l -> exists txt ys, headed head (option_map (fun ls => join s ls ++ LF) (all_some f (sorted_by key l))) = Some txt /\ regrouped key R l ys /\
    spelt_section n head g (fun h => F h /\ ko G NonAtomic (&"colour_definition" // e0) h) txt ys.
Proof.
  intros H EG BA HD S l L. pose proof (sorted_perm key l) as PM.
  destruct (written_all P f R _ F g H (sorted_by key l) (Permutation_Forall PM L)) as [xs [ys [E [HR HI]]]].
  exists (s2t head ++ LF ++ join s xs ++ LF), ys. split; [rewrite E; reflexivity|].
  split; [exists (sorted_by key l); split; [exact PM|split; [apply sorted_groups | exact HR]]|]. eapply spell_section; eassumption.
Qed.

(** ** The sections of a file *)
Definition section_is (tr : tree) (x : section_name * section) : Prop :=
  is_rule tr "colour_definition" = false /\ forall colours, parse_section tr colours = Ret (fst x, snd x, colours).
Definition chain (h : text) (l : list (section_name * section)) : Prop :=
  firmer h /\ forall k, break k -> exists k' trs, break k' /\ items &"section" (k ++ h) (k' ++ []) trs /\ Forall2 section_is trs l.
Ltac other := eapply ko_call; [reflexivity|]; apply ko_seq1; first [apply ko_alt; apply ko_str; intros ? X; discriminate X | apply ko_str; intros ? X; discriminate X].
Lemma chain_nil : chain [] [].
Proof.
  assert (F : firmer []) by (split; [apply firm_nil | exact I]). split; [exact F|]. intros k K. exists k, []. split; [exact K|]. split; [|constructor].
  apply items_nil; [apply break_firm, K|]. apply nl_ko; [exact K | exact F|]. eapply ko_call; [reflexivity|]. repeat (apply ko_alt; [other|]). other.
Qed.
Lemma head_firmer (r : text) : firmer (91%N :: r).
Proof. split; [apply firm_char; (reflexivity || discriminate) | reflexivity]. Qed.
Lemma chain_cons {A} n head (g : tree -> outcome (option A)) next txt ys k h l sec sn :
  spelt_section n ("[" ++ head) g next txt ys -> joint k -> next h -> chain h l ->
  (forall u r ts, okt NonAtomic (Call n) (s2t ("[" ++ head) ++ LF ++ u) r ts -> okt NonAtomic &"section" (s2t ("[" ++ head) ++ LF ++ u) r ts) ->
  (forall tr colours, rule_of tr = n -> parse_section tr colours = listed g sec sn tr colours) -> eqb n "colour_definition" = false ->
  chain (txt ++ k ++ h) ((sn, sec ys) :: l).
Proof.
  intros [[u E] S] J NX [FH CH] SEC PS NC. destruct (S k h J FH NX) as [k1 [tr [K1 [[R V] O]]]]. rewrite E in O |- *. rewrite <- !app_assoc in O |- *.
  split; [cbn [append s2t app]; apply head_firmer|].
  intros k2 K2. destruct (CH k1 K1) as [k3 [trs [K3 [I F]]]]. exists k3, (tr :: trs). split; [exact K3|]. split.
  - apply (items_cons _ k2 _ (k1 ++ h) (k3 ++ []) [tr] trs); [exact K2 | cbn [append s2t app]; apply head_firmer | apply SEC, O | exact I].
  - constructor; [|exact F]. split; [unfold is_rule; rewrite R; exact NC|]. intros colours. rewrite PS by exact R. unfold listed. rewrite V. reflexivity.
Qed.
Lemma sections_step trs l : Forall2 section_is trs l -> forall secs colours, ofold sct_step trs (secs, colours) = Ret (put_all l secs, colours).
Proof.
  induction 1 as [|tr [n s] trs l [R P] _ IH]; intros secs colours; [reflexivity|]. cbn [ofold sct_step]. rewrite R, P. cbn [obind fst snd]. rewrite IH. reflexivity.
Qed.

(** What must not be taken for an item *)
Lemma designator_ko a r : stops designator_char r -> ko G a &"designator" r.
Proof. intros S. eapply ko_plus; [reflexivity | apply designator_one | exact S]. Qed.
Lemma place_ko r : stops designator_char r -> stops (fun c => existsb (N.eqb c) (s2t "NSWEnswe")) r -> ko G NonAtomic (&"sct_coordinate" // &"airway_fix") r.
Proof. intros S1 S2. apply ko_alt; [apply coord_ko, S2|]. eapply ko_call; [reflexivity|]. apply ko_seq1. intros b k. apply m_push_not, designator_ko, S1. Qed.
Definition bracket (h : text) : Prop := exists u, h = 91%N :: u.
Lemma bracket_cd h : bracket h -> ko G NonAtomic &"colour_definition" h.
Proof. intros [u ->]. apply cd_ko. reflexivity. Qed.
Lemma location_ko h : bracket h -> ko G NonAtomic &"location" h.
Proof. intros [u ->]. eapply ko_call; [reflexivity|]. apply ko_seq1, designator_ko. reflexivity. Qed.
Lemma broken_ko h : bracket h -> ko G NonAtomic &"broken" h.
Proof. intros [u ->]. eapply ko_tok; [reflexivity|]. apply ko_seq1. eapply ko_nott. apply okt_alt1, (okt_str Atomic [91]%N u). Qed.
Lemma aerodrome_ko h : bracket h -> ko G NonAtomic &"aerodrome" h.
Proof. intros [u ->]. eapply ko_call; [reflexivity|]. apply ko_seq1, designator_ko. reflexivity. Qed.
Lemma runway_ko h : bracket h -> ko G NonAtomic &"runway" h.
Proof. intros [u ->]. eapply ko_call; [reflexivity|]. apply ko_seq1. eapply ko_tok; [reflexivity|]. apply ko_seq1, ko_seq1, ko_sat. reflexivity. Qed.
Lemma fix_ko s u : word fix_char (91%N :: s) -> ko G NonAtomic &"fix" (91%N :: s ++ LF ++ u).
Proof.
  intros W. eapply ko_call; [reflexivity|]. change (body_atom "fix" KNormal NonAtomic) with NonAtomic.
  eapply (ko_seq2 _ _ _ [] (LF ++ u)); [|constructor | apply firm_lf | apply coord_ko; reflexivity].
  eapply (fun e => tok_plus NonAtomic "fix_designator" e fix_char (91%N :: s)); [discriminate | reflexivity | apply fix_one | exact W | vm_compute; reflexivity].
Qed.
Lemma line_ko h : bracket h -> not_line h.
Proof. intros [u ->]. eapply ko_call; [reflexivity|]. apply ko_seq1, place_ko; reflexivity. Qed.
Lemma drawing_ko h : bracket h -> ko G NonAtomic &"coloured_lines" h.
Proof.
  intros [u ->]. eapply ko_call; [reflexivity|]. apply ko_seq1. eapply ko_call; [apply name_rule|]. apply ko_seq1. eapply until_ko.
  apply okt_alt2; [apply ahead_ko_here; reflexivity|]. apply okt_alt2; [apply ahead_ko_here; reflexivity|]. apply okt_alt1, (okt_str Compound [91]%N u).
Qed.
Lemma region_ko h : bracket h -> ko G NonAtomic &"region" h.
Proof.
  intros [u ->]. assert (F : firm (91%N :: u)) by apply head_firmer. eapply ko_call; [reflexivity|]. change (body_atom "region" KNormal NonAtomic) with NonAtomic.
  eapply (ko_seq2 _ _ _ [] (91%N :: u)); [apply okt_opt_no, ko_str; intros ? X; discriminate X | constructor | exact F|].
  eapply (ko_seq2 _ _ _ [] (91%N :: u)); [| constructor | exact F|].
  { eapply (fun e => tok NonAtomic "name" e [] (91%N :: u)); [discriminate | reflexivity|]. apply ok_star_nil. eapply until_ko.
    apply okt_alt2; [apply (nl_ko_at Atomic [] 91%N u); [discriminate | constructor | reflexivity | reflexivity]|].
    apply okt_alt2; [apply (ko_chr Atomic 9); reflexivity | apply (okt_str Atomic [91]%N u)]. }
  eapply (ko_seq2 _ _ _ [] (91%N :: u)); [apply okt_opt_no, nl_ko_here; [reflexivity | reflexivity | intros _; exact F] | constructor | exact F|].
  apply ko_seq1. eapply ko_plus; [reflexivity | apply colour_one | reflexivity].
Qed.
Lemma label_ko h : bracket h -> ko G NonAtomic &"label" h.
Proof. intros [u ->]. eapply ko_call; [reflexivity|]. apply ko_seq1. eapply ko_call; [reflexivity|]. apply ko_seq1. apply (ko_chr NonAtomic 34). reflexivity. Qed.
Lemma airway_ko u : ko G NonAtomic &"airway" (s2t "[LOW AIRWAY]" ++ u).
Proof.
  eapply ko_call; [reflexivity|]. change (body_atom "airway" KNormal NonAtomic) with NonAtomic.
  change (s2t "[LOW AIRWAY]" ++ u) with (s2t "[LOW" ++ s2t " " ++ s2t "AIRWAY" ++ 93%N :: u).
  eapply (ko_seq2 _ _ _ (s2t " ")); [| apply spaced_one | |].
  - eapply (fun e => tok_plus NonAtomic "fix_designator" e fix_char (s2t "[LOW")); [discriminate | reflexivity | apply fix_one | split; [discriminate | repeat constructor] | reflexivity].
  - apply firm_char; (reflexivity || discriminate).
  - apply ko_seq1, ko_alt; [apply coord_ko; reflexivity|]. apply ko_by; [reflexivity|]. intros c r ts E Y.
    destruct (fix_yes _ _ _ _ Y) as [d [b [[_ D] [[BN B] ->]]]].
    destruct (split_word designator_char d (b ++ d ++ r) (s2t "AIRWAY") (93%N :: u)) as [_ K]; [exact D | repeat constructor | | reflexivity | rewrite E, <- !app_assoc; reflexivity |].
    + destruct B as [|x b X B]; [congruence|]. cbn [app stops]. unfold space, designator_char, is_upper, is_digit in *. lia.
    + destruct B as [|x b X B]; [congruence|]. injection K as -> _. discriminate X.
Qed.
Lemma airway_ko_nil : ko G NonAtomic &"airway" [].
Proof. eapply ko_call; [reflexivity|]. apply ko_seq1. eapply ko_plus; [reflexivity | apply fix_one | exact I]. Qed.

(** ** The whole file *)
Lemma spelt_bracket {A} n head (g : tree -> outcome (option A)) next txt ys r : spelt_section n ("[" ++ head) g next txt ys -> bracket (txt ++ r).
Proof. intros [[u ->] _]. eexists. reflexivity. Qed.
Lemma sct_text t tr trs k h k' : okt NonAtomic (Call "info_section") t (k ++ h) [tr] -> firm t -> items &"section" (k ++ h) (k' ++ []) trs -> break k' ->
  top G "sct" t = Ret (tr :: trs ++ [T "EOI" [] []]).
Proof.
  intros O F I K. assert (FN : firmer []) by (split; [apply firm_nil | exact Logic.I]).
  assert (OO : okt NonAtomic (Opt &"section" ~~ Star (&"NL" ~~ &"section") ~~ Opt &"NL" ~~ EOI) t [] ([tr] ++ trs ++ [] ++ [T "EOI" [] []])).
  { eapply okt_seq0; [| eapply items_firm, I|].
    { apply okt_opt. eapply okt_silent; [reflexivity | reflexivity|]. apply okt_alt1, O. }
    eapply okt_seq0; [apply items_star, I | apply break_firm, K|].
    destruct (nl_ok k' [] K FN) as [b [B N]]. eapply okt_seq; [apply okt_opt, N | apply blank_spaced, B | apply firm_nil | | reflexivity].
    apply (okt_ok NonAtomic EOI [] []), ok_eoi. discriminate. }
  destruct OO as [c [E OO]]. rewrite app_nil_r in E. subst c.
  unfold top, pairs. rewrite (parse_matches G "sct" t t [] [] [T "sct" t ([tr] ++ trs ++ [] ++ [T "EOI" [] []])]); [reflexivity | vm_compute; reflexivity|].
  apply (m_call G NonAtomic "sct" KNormal _ true t [] (Some (t, [], [], [tr] ++ trs ++ [] ++ [T "EOI" [] []])) eq_refl).
  rewrite <- (app_nil_r t) at 1. apply ok_soi_seq.
  apply (ok_then G NonAtomic Skip _ [] t [] [] _); [|exact OO]. apply skip_ok; [constructor | rewrite app_nil_r; exact F].
Qed.
Lemma colours_text cs : exists cs' t k, Permutation cs cs' /\ trail (map colour_fmt cs') t /\ break k /\ LF ++ LF ++ colours_fmt cs = t ++ k.
Proof.
  destruct (Permutation_map_inv colour_fmt cs (Permutation_sym (sorted_perm (fun x => x) (map colour_fmt cs)))) as [cs' [E P]].
  exists cs'. unfold colours_fmt. unfold sorted. rewrite E.
  destruct (body_text LF (map colour_fmt cs') (LF ++ LF)) as [k [K B]]; [apply break_lf, lf_break|]. rewrite B.
  destruct cs' as [|x l]; cbn [map body].
  - exists [], (LF ++ k). split; [exact P|]. split; [constructor|]. split; [apply break_lf, K | reflexivity].
  - pose proof (trail_body LF (map colour_fmt (x :: l)) lf_break) as TR. cbn [map body] in TR. inversion TR as [|s x0 xs0 t0 S T0 E0]; subst.
    exists (LF ++ LF ++ colour_fmt x ++ after LF (map colour_fmt l)), k. split; [exact P|]. split; [|split; [exact K | rewrite <- !app_assoc; reflexivity]].
    rewrite (app_assoc LF LF). apply trail_cons; [apply break_lf, lf_break|].
    clear - x. induction l as [|y l IH]; [constructor|]. unfold after. cbn [map List.concat]. fold (after LF (map colour_fmt l)). rewrite <- app_assoc. apply trail_cons; [apply lf_break | exact IH].
Qed.
Lemma bracket_coord h : bracket h -> not_coord h.
Proof. intros [u ->]. apply coord_ko. reflexivity. Qed.
Lemma ofold_app {A B} (f : A -> B -> outcome A) l l' a : ofold f (l ++ l') a = obind (ofold f l a) (ofold f l').
Proof. revert a. induction l as [|x l IH]; intros a; [reflexivity|]. cbn [app ofold]. destruct (f a x); cbn [obind]; [apply IH | reflexivity | reflexivity]. Qed.
Ltac pick O := eapply okt_silent; [reflexivity | reflexivity|]; repeat first [exact O | apply okt_alt1; exact O | apply okt_alt2; [other|]].
Ltac clash := intros ? X; discriminate X.

Lemma round_trip show s : good_sct show s -> exists t s', sct_fmt show s = Some t /\ parse_sct t = Ret s' /\ near_sct s s'.
Proof.
  intros [GI [ND [GC [G1 [G2 [G3 [G4 [G5 [G6 [G7 [G8 [G9 [G10 [G11 [G12 [G13 [G14 G15]]]]]]]]]]]]]]]]].
  destruct (section_spelt _ _ _ "vor_section" (str "[VOR]") "[VOR]" _ _ _ vor_item eq_refl eq_refl (fun r => okt_str _ _ r) _ G1) as [t1 [y1 [E1 [N1 S1]]]].
  destruct (section_spelt _ _ _ "ndb_section" (str "[NDB]") "[NDB]" _ _ _ ndb_item eq_refl eq_refl (fun r => okt_str _ _ r) _ G2) as [t2 [y2 [E2 [N2 S2]]]].
  destruct (section_spelt _ _ _ "fixes_section" (str "[FIXES]") "[FIXES]" _ _ _ fix_item eq_refl eq_refl (fun r => okt_str _ _ r) _ G3) as [t3 [y3 [E3 [N3 S3]]]].
  destruct (section_spelt _ _ _ "airport_section" (str "[AIRPORT]") "[AIRPORT]" _ _ _ airport_item eq_refl eq_refl (fun r => okt_str _ _ r) _ G4) as [t4 [y4 [E4 [N4 S4]]]].
  assert (LL : break (LF ++ LF)) by apply break_lf, lf_break. pose proof lf_break as L1.
  destruct (listing_spelt _ _ r_ad _ LF "runway_section" (str "[RUNWAY]") "[RUNWAY]" _ _ _ runway_item eq_refl eq_refl (fun r => okt_str _ _ r) L1 _ G5) as [t5 [y5 [E5 [N5 S5]]]].
  destruct (listing_spelt _ _ dr_name _ (LF ++ LF) "sid_section" (str "[SID]") "[SID]" _ _ _ drawing_item eq_refl eq_refl (fun r => okt_str _ _ r) LL _ G6) as [t6 [y6 [E6 [N6 S6]]]].
  destruct (listing_spelt _ _ dr_name _ (LF ++ LF) "star_section" (str "[STAR]") "[STAR]" _ _ _ drawing_item eq_refl eq_refl (fun r => okt_str _ _ r) LL _ G7) as [t7 [y7 [E7 [N7 S7]]]].
  destruct (listing_spelt _ _ dr_name _ (LF ++ LF) "artcc_high_section" (str "[ARTCC HIGH]") "[ARTCC HIGH]" _ _ _ drawing_item eq_refl eq_refl (fun r => okt_str _ _ r) LL _ G8) as [t8 [y8 [E8 [N8 S8]]]].
  destruct (listing_spelt _ _ dr_name _ (LF ++ LF) "artcc_section" (str "[ARTCC]") "[ARTCC]" _ _ _ drawing_item eq_refl eq_refl (fun r => okt_str _ _ r) LL _ G9) as [t9 [y9 [E9 [N9 S9]]]].
  destruct (listing_spelt _ _ dr_name _ (LF ++ LF) "artcc_low_section" (str "[ARTCC LOW]") "[ARTCC LOW]" _ _ _ drawing_item eq_refl eq_refl (fun r => okt_str _ _ r) LL _ G10) as [t10 [y10 [E10 [N10 S10]]]].
  destruct (listing_spelt _ _ dr_name _ (LF ++ LF) "geo_section" (str "[GEO]") "[GEO]" _ _ _ drawing_item eq_refl eq_refl (fun r => okt_str _ _ r) LL _ G11) as [t11 [y11 [E11 [N11 S11]]]].
  assert (HR : forall r, okt NonAtomic (str "[Regions]" // str "[REGIONS]") (s2t "[REGIONS]" ++ r) r []).
  { intros r. apply okt_alt2; [apply ko_str; intros x X; discriminate X | apply okt_str]. }
  destruct (listing_spelt _ _ rg_name _ LF "region_section" (str "[Regions]" // str "[REGIONS]") "[REGIONS]" _ _ _ region_item eq_refl eq_refl HR L1 _ G12) as [t12 [y12 [E12 [N12 S12]]]].
  destruct (listing_spelt _ _ sb_name _ LF "labels_section" (str "[LABELS]") "[LABELS]" _ _ _ label_item eq_refl eq_refl (fun r => okt_str _ _ r) L1 _ G13) as [t13 [y13 [E13 [N13 S13]]]].
  destruct (listing_spelt _ _ aw_des _ LF "high_airway_section" (str "[HIGH AIRWAY]") "[HIGH AIRWAY]" _ _ _ airway_item eq_refl eq_refl (fun r => okt_str _ _ r) L1 _ G14) as [t14 [y14 [E14 [N14 S14]]]].
  destruct (listing_spelt _ _ aw_des _ LF "low_airway_section" (str "[LOW AIRWAY]") "[LOW AIRWAY]" _ _ _ airway_item eq_refl eq_refl (fun r => okt_str _ _ r) L1 _ G15) as [t15 [y15 [E15 [N15 S15]]]].
  assert (JN : joint []) by (left; reflexivity). assert (JL : joint LF) by (right; exact L1).
  assert (C15 : chain (t15 ++ [] ++ []) [(SnLowAirway, SecLowAirways y15)]).
  { apply (chain_cons "low_airway_section" "LOW AIRWAY]" _ _ _ _ _ _ _ _ _ S15 JN); [|apply chain_nil | intros u r ts O; pick O | intros tr cl R; unfold parse_section, is_rule; rewrite R; reflexivity | reflexivity].
    split; [exact I|]. apply ko_alt; [apply cd_ko; exact I | apply airway_ko_nil]. }
  assert (C14 : chain (t14 ++ LF ++ t15 ++ [] ++ []) ((SnHighAirway, SecHighAirways y14) :: [(SnLowAirway, SecLowAirways y15)])).
  { apply (chain_cons "high_airway_section" "HIGH AIRWAY]" _ _ _ _ _ _ _ _ _ S14 JL); [|exact C15 | intros u r ts O; pick O | intros tr cl R; unfold parse_section, is_rule; rewrite R; reflexivity | reflexivity].
    split; [exact I|]. destruct S15 as [[u ->] _]. apply ko_alt; [apply cd_ko; reflexivity | rewrite <- app_assoc; apply airway_ko]. }
  pose proof (fun r => spelt_bracket "high_airway_section" "HIGH AIRWAY]" _ _ _ _ r S14) as B14.
  pose proof (chain_cons "labels_section" "LABELS]" _ _ _ _ LF _ _ SecLabels SnLabels S13 JL (conj I (ko_alt G _ _ _ _ (bracket_cd _ (B14 _)) (label_ko _ (B14 _)))) C14
    ltac:(intros u r ts O; pick O) ltac:(intros tr cl R; unfold parse_section, is_rule; rewrite R; reflexivity) eq_refl) as C13.
  pose proof (fun r => spelt_bracket "labels_section" "LABELS]" _ _ _ _ r S13) as B13.
  pose proof (chain_cons "region_section" "REGIONS]" _ _ _ _ LF _ _ SecRegions SnRegions S12 JL (conj (bracket_coord _ (B13 _)) (ko_alt G _ _ _ _ (bracket_cd _ (B13 _)) (region_ko _ (B13 _)))) C13
    ltac:(intros u r ts O; pick O) ltac:(intros tr cl R; unfold parse_section, is_rule; rewrite R; reflexivity) eq_refl) as C12.
  pose proof (fun r => spelt_bracket "region_section" "REGIONS]" _ _ _ _ r S12) as B12.
  pose proof (chain_cons "geo_section" "GEO]" _ _ _ _ LF _ _ SecGeo SnGeo S11 JL (conj (line_ko _ (B12 _)) (ko_alt G _ _ _ _ (bracket_cd _ (B12 _)) (drawing_ko _ (B12 _)))) C12
    ltac:(intros u r ts O; pick O) ltac:(intros tr cl R; unfold parse_section, is_rule; rewrite R; reflexivity) eq_refl) as C11.
  pose proof (fun r => spelt_bracket "geo_section" "GEO]" _ _ _ _ r S11) as B11.
  pose proof (chain_cons "artcc_low_section" "ARTCC LOW]" _ _ _ _ LF _ _ SecArtccLow SnArtccLow S10 JL (conj (line_ko _ (B11 _)) (ko_alt G _ _ _ _ (bracket_cd _ (B11 _)) (drawing_ko _ (B11 _)))) C11
    ltac:(intros u r ts O; pick O) ltac:(intros tr cl R; unfold parse_section, is_rule; rewrite R; reflexivity) eq_refl) as C10.
  pose proof (fun r => spelt_bracket "artcc_low_section" "ARTCC LOW]" _ _ _ _ r S10) as B10.
  pose proof (chain_cons "artcc_section" "ARTCC]" _ _ _ _ LF _ _ SecArtcc SnArtcc S9 JL (conj (line_ko _ (B10 _)) (ko_alt G _ _ _ _ (bracket_cd _ (B10 _)) (drawing_ko _ (B10 _)))) C10
    ltac:(intros u r ts O; pick O) ltac:(intros tr cl R; unfold parse_section, is_rule; rewrite R; reflexivity) eq_refl) as C9.
  pose proof (fun r => spelt_bracket "artcc_section" "ARTCC]" _ _ _ _ r S9) as B9.
  pose proof (chain_cons "artcc_high_section" "ARTCC HIGH]" _ _ _ _ LF _ _ SecArtccHigh SnArtccHigh S8 JL (conj (line_ko _ (B9 _)) (ko_alt G _ _ _ _ (bracket_cd _ (B9 _)) (drawing_ko _ (B9 _)))) C9
    ltac:(intros u r ts O; pick O) ltac:(intros tr cl R; unfold parse_section, is_rule; rewrite R; reflexivity) eq_refl) as C8.
  pose proof (fun r => spelt_bracket "artcc_high_section" "ARTCC HIGH]" _ _ _ _ r S8) as B8.
  pose proof (chain_cons "star_section" "STAR]" _ _ _ _ LF _ _ SecStar SnStar S7 JL (conj (line_ko _ (B8 _)) (ko_alt G _ _ _ _ (bracket_cd _ (B8 _)) (drawing_ko _ (B8 _)))) C8
    ltac:(intros u r ts O; pick O) ltac:(intros tr cl R; unfold parse_section, is_rule; rewrite R; reflexivity) eq_refl) as C7.
  pose proof (fun r => spelt_bracket "star_section" "STAR]" _ _ _ _ r S7) as B7.
  pose proof (chain_cons "sid_section" "SID]" _ _ _ _ LF _ _ SecSid SnSid S6 JL (conj (line_ko _ (B7 _)) (ko_alt G _ _ _ _ (bracket_cd _ (B7 _)) (drawing_ko _ (B7 _)))) C7
    ltac:(intros u r ts O; pick O) ltac:(intros tr cl R; unfold parse_section, is_rule; rewrite R; reflexivity) eq_refl) as C6.
  pose proof (fun r => spelt_bracket "sid_section" "SID]" _ _ _ _ r S6) as B6.
  pose proof (chain_cons "runway_section" "RUNWAY]" _ _ _ _ LF _ _ SecRunways SnRunways S5 JL (conj I (ko_alt G _ _ _ _ (bracket_cd _ (B6 _)) (runway_ko _ (B6 _)))) C6
    ltac:(intros u r ts O; pick O) ltac:(intros tr cl R; unfold parse_section, is_rule; rewrite R; reflexivity) eq_refl) as C5.
  pose proof (fun r => spelt_bracket "runway_section" "RUNWAY]" _ _ _ _ r S5) as B5.
  pose proof (chain_cons "airport_section" "AIRPORT]" _ _ _ _ LF _ _ SecAirport SnAirport S4 JL (conj I (ko_alt G _ _ _ _ (bracket_cd _ (B5 _)) (aerodrome_ko _ (B5 _)))) C5
    ltac:(intros u r ts O; pick O) ltac:(intros tr cl R; unfold parse_section, is_rule; rewrite R; reflexivity) eq_refl) as C4.
  pose proof (fun r => spelt_bracket "airport_section" "AIRPORT]" _ _ _ _ r S4) as B4.
  assert (FX : forall r, ko G NonAtomic &"fix" (t4 ++ r)).
  { intros r. destruct S4 as [[u ->] _]. rewrite <- !app_assoc. apply (fix_ko (s2t "AIRPORT]")). split; [discriminate | repeat constructor]. }
  pose proof (chain_cons "fixes_section" "FIXES]" _ _ _ _ LF _ _ SecFixes SnFixes S3 JL (conj I (ko_alt G _ _ _ _ (bracket_cd _ (B4 _)) (ko_alt G _ _ _ _ (FX _) (broken_ko _ (B4 _))))) C4
    ltac:(intros u r ts O; pick O) ltac:(intros tr cl R; unfold parse_section, is_rule; rewrite R; reflexivity) eq_refl) as C3.
  pose proof (fun r => spelt_bracket "fixes_section" "FIXES]" _ _ _ _ r S3) as B3.
  pose proof (chain_cons "ndb_section" "NDB]" _ _ _ _ LF _ _ SecNdbs SnNdbs S2 JL (conj I (ko_alt G _ _ _ _ (bracket_cd _ (B3 _)) (ko_alt G _ _ _ _ (location_ko _ (B3 _)) (broken_ko _ (B3 _))))) C3
    ltac:(intros u r ts O; pick O) ltac:(intros tr cl R; unfold parse_section, is_rule; rewrite R; reflexivity) eq_refl) as C2.
  pose proof (fun r => spelt_bracket "ndb_section" "NDB]" _ _ _ _ r S2) as B2.
  pose proof (chain_cons "vor_section" "VOR]" _ _ _ _ LF _ _ SecVors SnVors S1 JL (conj I (ko_alt G _ _ _ _ (bracket_cd _ (B2 _)) (location_ko _ (B2 _)))) C2
    ltac:(intros u r ts O; pick O) ltac:(intros tr cl R; unfold parse_section, is_rule; rewrite R; reflexivity) eq_refl) as C1.
  pose proof (fun r => spelt_bracket "vor_section" "VOR]" _ _ _ _ r S1) as B1.
  set (h := t1 ++ LF ++ t2 ++ LF ++ t3 ++ LF ++ t4 ++ LF ++ t5 ++ LF ++ t6 ++ LF ++ t7 ++ LF ++ t8 ++ LF ++ t9 ++ LF ++ t10 ++ LF ++ t11 ++ LF ++ t12 ++ LF ++ t13 ++ LF ++ t14 ++ LF ++ t15 ++ [] ++ []) in *.
  destruct (colours_text (sc_colours s)) as [cs [t [k [P [TR [K EC]]]]]]. destruct C1 as [FH CH].
  destruct (info_ok show (sc_info s) cs t k h GI (Permutation_Forall P GC) TR K FH (bracket_cd _ (B1 _))) as [ti [i' [tr [EI [NI [RI [VI [[u0 TI] OI]]]]]]]].
  destruct (CH k K) as [k' [trs [K' [IT V]]]].
  assert (ET : sct_fmt show s = Some (ti ++ t ++ k ++ h)).
  { unfold sct_fmt, drawings_fmt, listing_fmt. rewrite EI, E1, E2, E3, E4, E5, E6, E7, E8, E9, E10, E11, E12, E13, E14, E15.
    cbn [writeln option_map all_some List.concat]. rewrite (app_assoc t), <- EC. unfold h. rewrite <- !app_assoc, !app_nil_r. reflexivity. }
  exists (ti ++ t ++ k ++ h). eexists. split; [exact ET|].
  assert (FT : firm (ti ++ t ++ k ++ h)) by (rewrite TI; apply (head_firmer _)).
  pose proof (sct_text _ tr trs k h k' OI FT IT K') as TP.
  assert (FO : forall l, Forall2 section_is trs l ->
    ofold sct_step (tr :: trs ++ [T "EOI" [] []]) ([], []) = Ret (put SnUnsupported SecUnsupported (put_all l [(SnInfo, SecInfo i')]), put_all cs [])).
  { intros l VL. cbn [ofold]. unfold sct_step at 1. unfold parse_section, is_rule. rewrite RI. cbn [obind]. 
    change (eqb "info_section" "colour_definition") with false. change (eqb "info_section" "info_section") with true. cbn match. rewrite VI. cbn [obind].
    rewrite ofold_app. rewrite (sections_step trs l VL). reflexivity. }
  specialize (FO _ V). split; [unfold parse_sct; rewrite TP; cbn [obind]; rewrite FO; cbn [obind]; reflexivity|].
  unfold near_sct. cbn [sc_info sc_colours sc_vors sc_ndbs sc_fixes sc_airports sc_runways sc_sids sc_stars sc_artccs_high sc_artccs sc_artccs_low sc_geo sc_regions sc_labels sc_high_airways sc_low_airways].
  split; [exact NI|]. split.
  { intros n. rewrite get_put_all. rewrite <- (get_perm n (sc_colours s) (rev cs) ND (perm_trans P (Permutation_rev cs))). destruct (get n (sc_colours s)); reflexivity. }
  repeat (split; [assumption|]). assumption.
Qed.

(** For examples *)
Lemma globe_ok p : globe_check (fst p) = true -> globe_check (snd p) = true -> on_globe p.
Proof. intros A B. destruct (globe_value _ A) as [A1 A2], (globe_value _ B) as [B1 B2]. unfold on_globe. auto. Qed.
Lemma word_ok f s : s <> [] -> forallb f s = true -> word f s.
Proof. intros N F. split; [exact N|]. apply Forall_forall. rewrite forallb_forall in F. exact F. Qed.
Lemma numeral_ok s : s <> [] -> forallb is_digit s = true -> numeral s.
Proof. intros N F. exists [], s. split; [reflexivity|]. split; [auto|]. apply numeral_int. exact (word_ok _ _ N F). Qed.
Lemma numeral_frac sg a b : sg = [] \/ sg = s2t "-" \/ sg = s2t "+" -> forallb is_digit a = true -> b <> [] -> forallb is_digit b = true -> numeral (sg ++ a ++ s2t "." ++ b).
Proof.
  intros S A N B. exists sg, (a ++ s2t "." ++ b). split; [reflexivity|]. split; [exact S|]. apply numeral_point; [|exact (word_ok _ _ N B)].
  apply Forall_forall. rewrite forallb_forall in A. exact A.
Qed.
Lemma solid_ok c r : space c = false -> c <> 59%N -> c <> 47%N -> solid (c :: r).
Proof.
  intros S A B. split; [intros ? ? E; injection E as <- _; exact S|]. split; intros [u E]; injection E as E _; congruence.
Qed.
Lemma designator_space c : designator_char c = true -> space c = false.
Proof. unfold space, designator_char, is_upper, is_digit. lia. Qed.
Lemma stammer_other c t : designator_char c = false -> ~ stammers (c :: t).
Proof.
  intros C [w [b [r [[N W] [_ E]]]]]. destruct W as [|d w D W]; [congruence|]. injection E as -> _. congruence.
Qed.
Lemma stammer_no x w b d t : forallb designator_char (x :: w) = true -> b <> [] -> forallb space b = true -> space d = false -> d <> x -> ~ stammers ((x :: w) ++ b ++ d :: t).
Proof.
  intros W N B D X [w2 [b2 [r [[N2 W2] [[M2 B2] E]]]]].
  assert (FW : Forall (fun c => designator_char c = true) (x :: w)) by (apply Forall_forall; rewrite forallb_forall in W; exact W).
  assert (FB : Forall (fun c => space c = true) b) by (apply Forall_forall; rewrite forallb_forall in B; exact B).
  assert (SP : forall c, space c = true -> designator_char c = false) by (intros c C; destruct (designator_char c) eqn:Y; [apply designator_space in Y; congruence | reflexivity]).
  destruct (split_word designator_char (x :: w) (b ++ d :: t) w2 (b2 ++ w2 ++ r) FW W2) as [E1 E2]; [| |exact E|].
  - destruct FB as [|c b C FB]; [congruence|]. apply SP, C.
  - destruct B2 as [|c b2 C B2]; [congruence|]. apply SP, C.
  - subst w2. destruct (split_word space b (d :: t) b2 ((x :: w) ++ r) FB B2) as [_ E3]; [exact D | | exact E2|].
    + cbn [app stops]. apply designator_space. inversion FW; assumption.
    + injection E3 as E3 _. congruence.
Qed.
