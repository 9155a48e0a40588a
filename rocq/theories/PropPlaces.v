(** Property theorems: which places are the same (C72). *)
From Coq Require Import Reals Psatz.
From Verif Require Import Base Num Float FloatParse Dms SpecDms DmsWide Sectors SpecSectors SectorsFromEse Places SpecPlaces PlacesProofs PropSectors.

(** Coordinates are compared as whole numbers of millionths of a degree, the nearest ones. *)
Theorem C72_nearest p : somewhere p ->
  millionths (fst (quantize p)) (px p) (5000001 / 10000000000000) /\ millionths (snd (quantize p)) (py p) (5000001 / 10000000000000).
Proof. intros [X Y]. split; apply q_millionths; assumption. Qed.
Print Assumptions C72_nearest.
(** Fixes are equal only if they have the same name and are less than 1.0000002 millionths of a degree apart. *)
Theorem C72_equal a b : somewhere (fx_pos a) -> somewhere (fx_pos b) -> fix_eqb a b = true ->
  fx_name a = fx_name b /\
  (apart (px (fx_pos a)) (px (fx_pos b)) <= 10000002 / 10000000000000)%R /\ (apart (py (fx_pos a)) (py (fx_pos b)) <= 10000002 / 10000000000000)%R.
Proof.
  intros [X Y] [X' Y'] E. apply fix_eqb_spec in E. destruct E as [N E]. split; [exact N|]. unfold quantize in E. injection E as EX EY.
  split; apply q_apart; assumption.
Qed.
Print Assumptions C72_equal.
(** They are equal if they have the same name and both are, up to 0.4 millionths, at the same millionths of a degree. *)
Theorem C72_same a b x y : somewhere (fx_pos a) -> somewhere (fx_pos b) -> fx_name a = fx_name b ->
  millionths x (px (fx_pos a)) (4 / 10000000) -> millionths y (py (fx_pos a)) (4 / 10000000) ->
  millionths x (px (fx_pos b)) (4 / 10000000) -> millionths y (py (fx_pos b)) (4 / 10000000) -> fix_eqb a b = true.
Proof.
  intros [X Y] [X' Y'] N A B A' B'. apply fix_eqb_spec. split; [exact N|]. unfold quantize.
  rewrite (q_of_millionths x _ X A), (q_of_millionths y _ Y B), (q_of_millionths x _ X' A'), (q_of_millionths y _ Y' B'). reflexivity.
Qed.
Print Assumptions C72_same.
(** Coordinates written with six decimals are the same iff the same number is written. *)
Theorem C72_six_decimals s s' n n' : (n < 999000000)%N -> (n' < 999000000)%N ->
  exists x x', parse_f64 (six_decimals s n) = Some x /\ parse_f64 (six_decimals s' n') = Some x' /\
    (q x = q x' <-> (if s then - Z.of_N n else Z.of_N n)%Z = (if s' then - Z.of_N n' else Z.of_N n')%Z).
Proof.
  intros L L'. destruct (q_six s n L) as [x [P [_ Q]]]. destruct (q_six s' n' L') as [x' [P' [_ Q']]].
  exists x, x'. split; [exact P|]. split; [exact P'|]. rewrite Q, Q'. reflexivity.
Qed.
Print Assumptions C72_six_decimals.
(** Equality is an equivalence, also for coordinates that are not numbers, and equal fixes have equal hashes with any hasher. *)
Theorem C72_equivalence : (forall a, fix_eqb a a = true) /\ (forall a b, fix_eqb a b = true -> fix_eqb b a = true) /\
  (forall a b c, fix_eqb a b = true -> fix_eqb b c = true -> fix_eqb a c = true).
Proof.
  split; [|split]; intros *; rewrite ?fix_eqb_spec; [split; reflexivity| |].
  - intros [A B]. split; symmetry; assumption.
  - intros [A B] [C D]. split; etransitivity; eassumption.
Qed.
Print Assumptions C72_equivalence.
Theorem C72_hash (H : Type) (feed : H -> fed -> H) a b state : fix_eqb a b = true -> fix_hash feed a state = fix_hash feed b state.
Proof. apply fix_hash_eq. Qed.
Print Assumptions C72_hash.
(** The corners of the volumes are the points of the border lines in the file, up to half a millionth of a degree: every
    corner is near such a point, and every point of a line (of at least two points) is near a corner. *)
Theorem C72_borders entries order ccw gorder vols secs :
  NoDup (keys entries) -> (forall id, set_order (order id)) -> (forall l, Permutation (gorder l) l) -> (forall l p, In p (ccw l) <-> In p l) ->
  (forall id s l p, In (id, s) entries -> In l (es_border s) -> In p l -> somewhere p) ->
  sectors_from_ese entries order ccw gorder = Some (vols, secs) ->
  forall id v, get id vols = Some v -> exists s, In (id, s) entries /\
    (forall c, In c (v_border v) -> exists l p, In l (es_border s) /\ In p l /\ near p c) /\
    (forall l p, In l (es_border s) -> (2 <= List.length l)%nat -> In p l -> exists c, In c (v_border v) /\ near p c).
Proof.
  intros ND SO GO C B E. destruct (from_ese_spec order ccw SO entries gorder ND GO) as [vols' [secs' [E' O]]].
  rewrite E in E'. injection E' as <- <-. exact (volume_corners entries ccw vols secs O C B).
Qed.
Print Assumptions C72_borders.
(** But points that are closer to each other than any bound in degrees that matters can be different. *)
Definition tie : f64 := f64_of_dec false 5 7.
Definition below_tie : f64 := match tie with S754_finite s m e => S754_finite s (Pos.pred m) e | x => x end.
Theorem C72_close_refuted : ~ (forall a b, somewhere (fx_pos a) -> somewhere (fx_pos b) -> fx_name a = fx_name b ->
  (apart (px (fx_pos a)) (px (fx_pos b)) <= 1 / 1000000000000000000000)%R -> apart (py (fx_pos a)) (py (fx_pos b)) = 0%R -> fix_eqb a b = true).
Proof.
  intros H. assert (M : forall x, globe_check x = true -> moderate x).
  { intros x C. destruct (globe_value x C) as [F L]. split; [exact F | lra]. }
  specialize (H (mkFix (s2t "ABC") (tie, tie)) (mkFix (s2t "ABC") (below_tie, tie))).
  assert (E : true = false); [|discriminate]. rewrite <- H; [vm_compute; reflexivity| | | | |].
  - split; apply M; vm_compute; reflexivity.
  - split; apply M; vm_compute; reflexivity.
  - reflexivity.
  - unfold apart. cbn [fx_pos px fst]. let t := eval vm_compute in tie in change tie with t. let t := eval vm_compute in below_tie in change below_tie with t.
    unfold real_value, BinarySingleNaN.SF2R, Defs.F2R. cbn [Defs.Fnum Defs.Fexp SpecFloat.cond_Zopp Raux.bpow].
    change (Z.pow_pos (Zaux.radix_val Zaux.radix2) 73) with 9444732965739290427392%Z. apply Rabs_le. lra.
  - unfold apart. cbn [fx_pos py snd]. rewrite Rminus_diag_eq by reflexivity. apply Rabs_R0.
Qed.
Print Assumptions C72_close_refuted.

Definition ex_fix (x y : f64) : fix_ := mkFix (s2t "KERAX") (x, y).
(** 8.5432 degrees, as a quotient and a little more than that *)
Definition ex_east : f64 := fdiv (f64_of_Z 8543200) (f64_of_Z 1000000).
Definition ex_east' : f64 := f64_of_dec false 85432000001 10.
Example C72_nonvacuous :
  (exists a b, a <> b /\ somewhere (fx_pos a) /\ somewhere (fx_pos b) /\ fix_eqb a b = true) /\
  (exists a b, fx_name a = fx_name b /\ somewhere (fx_pos a) /\ somewhere (fx_pos b) /\ fix_eqb a b = false) /\
  six_decimals true 8543200 = s2t "-8.543200" /\
  millionths 8543200 ex_east (4 / 10000000) /\
  let entries := [(s2t "A", ex_sector "A" "O" ex_border); (s2t "B", ex_sector "B" "P" ex_border)] in
  NoDup (keys entries) /\ (forall id s l p, In (id, s) entries -> In l (es_border s) -> In p l -> somewhere p) /\
  exists vols secs v, sectors_from_ese entries (fun _ l => l) (fun l => l) (fun l => l) = Some (vols, secs) /\ get (s2t "A") vols = Some v /\
    List.length (v_border v) = 7%nat.
Proof.
  assert (M : forall x, globe_check x = true -> moderate x).
  { intros x C. destruct (globe_value x C) as [F L]. split; [exact F | lra]. }
  split; [|split; [|split; [|split; [|split; [|split]]]]].
  - exists (ex_fix ex_east ex_east), (ex_fix ex_east ex_east'). split; [|split; [|split]].
    + intros E. apply (f_equal (fun f => SFcompare (py (fx_pos f)) ex_east)) in E. vm_compute in E. discriminate.
    + split; apply M; vm_compute; reflexivity.
    + split; apply M; vm_compute; reflexivity.
    + vm_compute. reflexivity.
  - exists (ex_fix tie tie), (ex_fix tie ex_east). split; [reflexivity|]. split; [|split].
    + split; apply M; vm_compute; reflexivity.
    + split; apply M; vm_compute; reflexivity.
    + vm_compute. reflexivity.
  - vm_compute. reflexivity.
  - destruct (div_million 8543200 ltac:(lia)) as [_ C]. unfold millionths, ex_east. lra.
  - apply nodupb_NoDup. vm_compute. reflexivity.
  - intros id s l p I IL IP.
    assert (G : forallb (fun e => forallb (forallb (fun p => globe_check (px p) && globe_check (py p))) (es_border (snd e)))
      [(s2t "A", ex_sector "A" "O" ex_border); (s2t "B", ex_sector "B" "P" ex_border)] = true) by (vm_compute; reflexivity).
    rewrite forallb_forall in G. specialize (G _ I). cbn [snd] in G. rewrite forallb_forall in G. specialize (G _ IL).
    rewrite forallb_forall in G. specialize (G _ IP). apply andb_true_iff in G. split; apply M; apply G.
  - eexists _, _, _. split; [vm_compute; reflexivity|]. split; vm_compute; reflexivity.
Qed.
