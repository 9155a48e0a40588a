(** Property C48: a sector (.sct) file that is written can be read back. *)
From Coq Require Import Reals.
From Verif Require Import Base Float FloatParse Colours Locations SctData SctParse SctWrite PropSct SpecText SpecDms SpecSctWrite DmsWide SctRoundTrip.
Local Open Scope string_scope.
Local Open Scope list_scope.

(** Whatever is written is read, and reading gives what was written: the same names, frequencies, headings, colours and
    other texts, coordinates within 0.000502 seconds, and the items of a section in another order.  [show] is the
    text of the four numbers of the general information. *)
Theorem C48_round_trip : forall show s, good_sct show s -> exists t s', sct_fmt show s = Some t /\ parse_sct t = Ret s' /\ near_sct s s'.
Proof. exact round_trip. Qed.
Print Assumptions C48_round_trip.

(** ** An example with all sections *)
Definition at_ (lat lng : Z) : point := (f64_of_dec (lng <? 0)%Z (Z.abs_N lng) 3, f64_of_dec (lat <? 0)%Z (Z.abs_N lat) 3).
Definition fix_to (a b : string) : list location := [LFix (s2t a); LFix (s2t b)].
Definition drawing_test : drawing := mkDrawing (s2t "EDDM 26L via ABC") [
  mkLineGroup [[LCoord (at_ 48353 11786); LCoord (at_ 48361 11820); LFix (s2t "ABC")]; fix_to "ABC" "DEF"] (Some (s2t "COLOR_APP"));
  mkLineGroup [fix_to "DEF" "GHI"] None].
Definition fixes_test : drawing := mkDrawing (s2t "border") [mkLineGroup [fix_to "ABC" "DEF"; [LFix (s2t "DEF"); LCoord (at_ (-1500) (-250))]] None].
Definition show_test (x : f64) : text :=
  if SFeqb x (f64_of_dec false 60 0) then s2t "60" else if SFeqb x (f64_of_dec false 39 0) then s2t "39"
  else if SFeqb x (f64_of_dec true 29 1) then s2t "-2.9" else s2t "1".
Definition info_test : sct_info := mkSctInfo (s2t "AeroNav, Munich") (s2t "AERO_NAV") (s2t "ZZZZ") (at_ 48137 11563)
  (f64_of_dec false 60 0) (f64_of_dec false 39 0) (f64_of_dec true 29 1) (f64_of_dec false 1 0).
Definition written_test : sct := mkSct info_test [(s2t "COLOR_APP", mkColour 255 0 0 255); (s2t "water", mkColour 0 0 200 255)]
  [mkSctAp (s2t "EDDM") (at_ 48353 11786) (s2t "D")]
  [mkFix (s2t "[X]") (at_ 48500 11500); mkFix (s2t "ABC") (at_ 49000 12000)]
  [mkNav (s2t "MIQ") (s2t "426.000") (at_ 48570 11597)] [mkNav (s2t "OTT") (s2t "112.300") (at_ 48180 11816); mkNav (s2t "NUB") (s2t "115.750") (at_ 49502 11035)]
  [mkRunway (s2t "08L", s2t "26R") (80, 260)%N (at_ 48362 11767, at_ 48367 11821) (s2t "EDDM")]
  [drawing_test] [fixes_test; drawing_test] [] [fixes_test] [] [mkSctAirway (s2t "UL607") (LFix (s2t "ABC")) (LFix (s2t "DEF"))]
  [mkSctAirway (s2t "A361") (LFix (s2t "ABC")) (LCoord (at_ 48000 12000))]
  [mkRegion (s2t "EDDM apron") (s2t "water") [at_ 48350 11700; at_ 48351 11700; at_ 48351 11701]]
  [mkSctLabel (s2t "Wien") (LCoord (at_ 48200 16370)) (s2t "COLOR_APP")] [drawing_test].
Ltac globe := apply globe_ok; vm_compute; reflexivity.
Ltac spelt := apply word_ok; [discriminate | reflexivity].
Ltac each tac := repeat (apply Forall_cons; [tac|]); try apply Forall_nil.
Ltac all_ok := repeat constructor; discriminate.
Ltac all_ok' := repeat constructor; intros X; repeat (destruct X as [X|X]; [discriminate X|]); destruct X.
Ltac last_ok := intros c r E; let L := fresh in pose proof (f_equal (fun l => hd 0%N (rev l)) E) as L; cbv beta in L; rewrite rev_unit in L; cbn in L; subst c; first [reflexivity | discriminate].
Ltac firm_start := apply solid_ok; (reflexivity || discriminate).
Ltac other_start := intros X; repeat match goal with H : exists _, _ |- _ => destruct H | H : _ /\ _ |- _ => destruct H end; congruence.

Lemma drawing_ok : good_drawing drawing_test.
Proof.
  split; [|split].
  - split; [discriminate|]. split; [split; [repeat constructor; discriminate|]|].
    { repeat constructor; intros X; repeat (destruct X as [X|X]; [discriminate X|]); destruct X. }
    split; [firm_start|]. split; [last_ok|]. split; [intros [r E]; discriminate E|].
    intros [h [d [r [_ [[N D] E]]]]]. injection E as _ E. destruct D as [|c d C D]; [congruence|]. injection E as <- _. discriminate C.
  - cbn. repeat (apply Forall_cons; [split; [|split]; cbn [fst snd place]; [first [globe | spelt]..|]; first [exact I | spelt]|]). constructor.
  - do 4 eexists. split; [reflexivity|]. split; [reflexivity|]. cbn [first_line dr_name drawing_test].
    apply (stammer_no 69%N (s2t "DDM") (s2t " ") 50%N); (reflexivity || discriminate).
Qed.
Lemma fixes_ok : good_drawing fixes_test.
Proof.
  split; [|split].
  - split; [discriminate|]. split; [split; [repeat constructor; discriminate|]|].
    { repeat constructor; intros X; repeat (destruct X as [X|X]; [discriminate X|]); destruct X. }
    split; [firm_start|]. split; [last_ok|]. split; [intros [r E]; discriminate E|].
    intros [h [d [r [H [_ E]]]]]. injection E as <- E. repeat (destruct H as [H|H]; [discriminate H|]). destruct H.
  - cbn. repeat (apply Forall_cons; [split; [|split]; cbn [fst snd place]; [first [globe | spelt]..|]; first [exact I | spelt]|]). constructor.
  - do 4 eexists. split; [reflexivity|]. split; [reflexivity|]. cbn [first_line dr_name fixes_test]. split; [discriminate|]. apply stammer_other. reflexivity.
Qed.
Ltac one_number := split; [first [apply numeral_ok; (discriminate || reflexivity)
  | exact (numeral_frac (s2t "-") (s2t "2") (s2t "9") (or_intror (or_introl eq_refl)) eq_refl ltac:(discriminate) eq_refl)] | vm_compute; reflexivity].
Ltac info_ok := split; [split; [spelt | split; [firm_start | intros [? E0]; discriminate E0]]|]; split; [spelt|]; split; [spelt|]; split; [globe|];
  split; [one_number | split; [one_number | split; one_number]].
Lemma info_good : good_info show_test info_test.
Proof. info_ok. Qed.
Definition info_lines : list string := ["[INFO]"; "AeroNav"; "AERO_NAV"; "ZZZZ"; "N048.08.12.527"; "E011.33.47.512"; "60"; "39"; "-2.9"; "1.0"; ""].
Lemma info_read : match parse_sct (sct_lines info_lines) with Ret s => good_info show_test (sc_info s) | _ => False end.
Proof. vm_compute parse_sct. cbn match. cbn [sc_info]. info_ok. Qed.

Example C48_nonvacuous : good_sct show_test written_test /\ exists t, sct_fmt show_test written_test = Some t /\ match parse_sct t with
  | Ret s => map n_des (sc_vors s) = map s2t ["NUB"; "OTT"] /\ map (fun x => fst (f_pos x)) (sc_fixes s) = [f64_of_dec false 12 0; f64_of_dec false 115 1] /\
      map dr_name (sc_stars s) = map s2t ["EDDM 26L via ABC"; "border"] /\ map (fun d => map lg_lines (dr_groups d)) (sc_artccs s) = [[[[LFix (s2t "ABC"); LFix (s2t "DEF"); LCoord (at_ (-1500) (-250))]]]] /\
      map sb_name (sc_labels s) = [s2t "Wien"] /\ List.length (sc_colours s) = 2
  | _ => False
  end.
Proof.
  split; [|eexists; split; [vm_compute; reflexivity | vm_compute; repeat split]].
  split; [exact info_good|]. split; [repeat constructor; intros X; repeat (destruct X as [X|X]; [discriminate X|]); destruct X|].
  split; [repeat (apply Forall_cons; [split; [spelt | split; [vm_compute; auto | reflexivity]]|]); constructor|].
  unfold written_test; cbn [sc_vors sc_ndbs sc_fixes sc_airports sc_runways sc_sids sc_stars sc_artccs_high sc_artccs sc_artccs_low sc_geo sc_regions sc_labels sc_high_airways sc_low_airways].
  split; [each ltac:(split; [spelt | split; [|globe]])|].
  { exact (numeral_frac [] (s2t "112") (s2t "300") (or_introl eq_refl) eq_refl ltac:(discriminate) eq_refl). }
  { exact (numeral_frac [] (s2t "115") (s2t "750") (or_introl eq_refl) eq_refl ltac:(discriminate) eq_refl). }
  split; [each ltac:(split; [spelt | split; [|globe]])|].
  { exact (numeral_frac [] (s2t "426") (s2t "000") (or_introl eq_refl) eq_refl ltac:(discriminate) eq_refl). }
  split; [each ltac:(split; [split; [spelt | firm_start] | globe])|].
  split; [each ltac:(split; [spelt | split; [globe | cbn; tauto]])|].
  split. { each ltac:(split; [exists 48%N, 56%N, (s2t "L") | split; [exists 50%N, 54%N, (s2t "R") | split; [reflexivity | split; [reflexivity | split; [globe | split; [globe | spelt]]]]]]); repeat (split; [reflexivity|]); split; [|reflexivity| |reflexivity]; cbn; tauto. }
  do 6 (split; [each ltac:(first [apply drawing_ok | apply fixes_ok])|]).
  split. { each ltac:(split; [split; [split|split]|split; [spelt | split; [discriminate|]]]); [all_ok | all_ok' | firm_start | last_ok | each globe]. }
  split. { each ltac:(split; [split; [split|]|split; [eexists; split; [reflexivity | globe] | spelt]]); [all_ok | all_ok' | firm_start]. }
  split; each ltac:(split; [split; [spelt | firm_start] | split; first [spelt | globe]]).
Qed.

(** ** What cannot be read *)
(** A file without general information is read but what is written of it is not. *)
Theorem C48_no_info_refuted : ~ (forall show t s, parse_sct t = Ret s -> exists t' s', sct_fmt show s = Some t' /\ parse_sct t' = Ret s').
Proof.
  intros H. destruct (parse_sct (sct_lines ["[SID]"; "via ABC ABC DEF DEF"])) as [s| |] eqn:E; [|vm_compute in E; discriminate E..].
  destruct (H show_test _ s E) as [t' [s' [W R]]]. vm_compute in E. injection E as <-. vm_compute in W. injection W as <-. vm_compute in R. discriminate R.
Qed.
Print Assumptions C48_no_info_refuted.
(** Nor is what is written of a drawing whose first segment starts and ends at the same place, a common placeholder:
    the segment is dropped, and the next one may join a fix and a coordinate, or there is no other. *)
Theorem C48_placeholder_refuted : ~ (forall show t s, parse_sct t = Ret s -> good_info show (sc_info s) ->
  (forall d, In d (sc_sids s) -> drawing_name (dr_name d)) -> exists t' s', sct_fmt show s = Some t' /\ parse_sct t' = Ret s').
Proof.
  intros H. destruct (parse_sct (sct_lines (info_lines ++ ["[SID]"; "border N000.00.00.000 E000.00.00.000 N000.00.00.000 E000.00.00.000"]))) as [s| |] eqn:E; [|vm_compute in E; discriminate E..].
  destruct (H show_test _ s E) as [t' [s' [W R]]]; clear H; vm_compute in E; injection E as <-.
  - exact info_read.
  - intros d [<- |[]]. apply fixes_ok.
  - vm_compute in W. injection W as <-. vm_compute in R. discriminate R.
Qed.
Print Assumptions C48_placeholder_refuted.
