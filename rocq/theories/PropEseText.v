(** Property theorems: the text of .ese files (C78). *)
From Verif Require Import Base Num Float FloatParse Dms SpecText SpecFields Sectors Constraints Trees EseParse SpecEseText EseFiles.
Local Open Scope string_scope.
Local Open Scope list_scope.

(** A file whose sections and lines are written as [section_lines] tells is read, whatever white space, empty lines, remarks and
    line ends there are, and its positions, sectors, coordination points and procedures are those that are written. *)
Theorem C78_ese_text l t : l <> [] -> Forall good_section l -> ese_text l t -> exists e, parse_ese t = Ret e /\ ese_reads l e.
Proof. exact (ese_text_reads l t). Qed.
Print Assumptions C78_ese_text.
(** Nothing else of the file matters: files with the same lines have the same contents. *)
Theorem C78_layout_irrelevant l t t' e e' : l <> [] -> Forall good_section l -> ese_text l t -> ese_text l t' ->
  parse_ese t = Ret e -> parse_ese t' = Ret e' -> same_ese e e'.
Proof.
  intros N F T T' E E'. destruct (ese_text_reads l t N F T) as [x [X R]]. destruct (ese_text_reads l t' N F T') as [x' [X' R']].
  rewrite E in X. injection X as <-. rewrite E' in X'. injection X' as <-. exact (ese_reads_same l e e' R R').
Qed.
Print Assumptions C78_layout_irrelevant.

Definition ex_place : dms * dms := (mkDms (s2t "N") (s2t "048") (s2t "21") (s2t "13.250"), mkDms (s2t "e") (s2t "011") (s2t "47") (s2t "09.000")).
Definition ex_sections : list section := [
  Other (s2t "FREETEXT") [s2t "N048.21.13.000:E011.47.09.000:Text:EDDM"];
  Positions [
    mkPositionLine (s2t "Munich Tower") (s2t "EDDM_TWR") (s2t "118.700") (s2t "MTW") (s2t "M") (s2t "EDDM") (s2t "TWR") (s2t "-") (s2t "-") (Some (s2t "4201", s2t "4277")) [ex_place];
    mkPositionLine [] (s2t "EDDM_GND") (s2t "121.975") (s2t "MGN") [] (s2t "EDDM") (s2t "GND") [] [] None [] ];
  Airspace [
    Sectorline (s2t "TWR1") [Display (s2t "MTW") (s2t "MTW") (s2t "APP"); Corner ex_place; Corner ex_place];
    CircleLine (s2t "C1") (s2t "EDDM") (s2t "5.5") [];
    Sector (s2t "EDDM_TWR") (s2t "0") (s2t "3500") [Owner (s2t "MTW") [s2t "APP"]; Border (s2t "TWR1") [s2t "NONE"]; Active (s2t "EDDM") (s2t "26L"); Guest (s2t "APP") None (Some (s2t "EDDM"))];
    Copx false (mkCop None (Some (s2t "26R")) (Some (s2t "ABC")) None None (s2t "EDDM_TWR") (s2t "APP") None (Some (s2t "5000")) (s2t "Descend")) ];
  Procedures [mkProcedure false (s2t "EDDM") (Some (s2t "26R")) (s2t "GIVMI1N") [([], s2t "DM060"); (s2t "  ", s2t "GIVMI")]; mkProcedure true (s2t "EDDM") None (s2t "AKINI1A") []] ].
(** lines, with white space, ends, lines without content, and the indentation of the next line *)
Fixpoint ex_layout (odd : bool) (ls : list text) : text :=
  match ls with
  | [] => []
  | l :: ls => if odd then l ++ s2t " " ++ [13; 10]%N ++ (s2t " ; remark" ++ [10]%N ++ []) ++ s2t "  " ++ ex_layout false ls else l ++ [] ++ [10]%N ++ [] ++ [] ++ ex_layout true ls
  end.
Definition ex_text : text := (s2t ";remark" ++ [10]%N ++ []) ++ [] ++ ex_layout true (flat_map section_lines ex_sections).
Example C78_nonvacuous : Forall good_section ex_sections /\ ese_text ex_sections ex_text /\ List.length (airspace_in ex_sections) = 4%nat.
Proof.
  assert (W : forall w, forallb (fun c => negb (existsb (N.eqb c) [58; 10; 13; 32; 9; 59]%N)) w = true -> words w).
  { intros w F. rewrite forallb_forall in F. assert (X : forall c, In c w -> ~ In c [58; 10; 13; 32; 9; 59]%N).
    { intros c I Q. specialize (F c I). apply negb_true_iff in F. assert (existsb (N.eqb c) [58; 10; 13; 32; 9; 59]%N = true); [|congruence].
      apply existsb_exists. exists c. split; [exact Q | apply N.eqb_refl]. }
    split; [split; [|split]|].
    - apply Forall_forall. intros c I. pose proof (X c I). cbn in *. intuition congruence.
    - intros c v ->. pose proof (X c (or_introl eq_refl)) as Y. destruct (is_blank c) eqn:E; [|reflexivity]. unfold is_blank in E. apply orb_prop in E. contradiction Y. cbn. destruct E as [E|E]; apply N.eqb_eq in E; intuition congruence.
    - intros v c ->. pose proof (X c (in_or_app v [c] c (or_intror (or_introl eq_refl)))) as Y. destruct (is_blank c) eqn:E; [|reflexivity]. unfold is_blank in E. apply orb_prop in E. contradiction Y. cbn. destruct E as [E|E]; apply N.eqb_eq in E; intuition congruence.
    - intros v ->. pose proof (X 59%N (or_introl eq_refl)) as Y. apply Y. cbn. tauto. }
  assert (W2 : words (s2t "Munich Tower")).
  { split; [split; [|split]|]; [repeat constructor; discriminate | intros c v E; injection E as <- _; reflexivity | | discriminate].
    intros v c E. change (s2t "Munich Tower") with (s2t "Munich Towe" ++ [114%N]) in E. apply app_inj_tail in E. destruct E as [_ <-]. reflexivity. }
  assert (CD : forall w, forallb designator_char w = true -> w <> [] -> code w).
  { intros w F N. split; [exact N|]. apply Forall_forall, forallb_forall, F. }
  assert (DG : forall w, forallb is_digit w = true -> w <> [] -> digits w).
  { intros w F N. split; [exact N|]. apply Forall_forall, forallb_forall, F. }
  assert (WH : forall w, forallb is_digit w = true -> w <> [] -> whole w).
  { intros w F N. exists [], w. split; [reflexivity|]. split; [auto | apply DG; assumption]. }
  assert (NM : forall a b, forallb is_digit a = true -> forallb is_digit b = true -> a <> [] -> b <> [] -> numeral (a ++ s2t "." ++ b)).
  { intros a b A B NA NB. exists [], (a ++ s2t "." ++ b). split; [reflexivity|]. split; [auto|]. apply numeral_point; [apply (DG a A NA) | apply (DG b B NB)]. }
  assert (PL : exists p, reads_place ex_place p).
  { eexists. eexists (_, _, _, _), (_, _, _, _). split; [|split; [|reflexivity]]; cbn [reads_dms ex_place fst snd d_letter d_deg d_min d_sec].
    - split; [instantiate (1 := Pos); cbn; tauto|]. split; [apply DG; [reflexivity | discriminate]|]. split; [apply DG; [reflexivity | discriminate]|].
      split; [apply (NM (s2t "13") (s2t "250")); (reflexivity || discriminate)|]. repeat split; vm_compute; reflexivity.
    - split; [instantiate (1 := Pos); cbn; tauto|]. split; [apply DG; [reflexivity | discriminate]|]. split; [apply DG; [reflexivity | discriminate]|].
      split; [apply (NM (s2t "09") (s2t "000")); (reflexivity || discriminate)|]. repeat split; vm_compute; reflexivity. }
  split; [|split; [|reflexivity]].
  - destruct PL as [p P]. apply Forall_cons; [|apply Forall_cons; [|apply Forall_cons; [|apply Forall_cons; [|apply Forall_nil]]]]; cbn [good_section].
    + split; [discriminate|]. split; [apply Forall_forall, forallb_forall; reflexivity|]. split; [discriminate|]. split; [discriminate|]. split; [cbn; intuition discriminate|].
      constructor; [|constructor]. split; [discriminate|]. split; [repeat constructor; discriminate|]. split; [split|].
      * intros c v E. injection E as <- _. reflexivity.
      * intros v c E. change (s2t "N048.21.13.000:E011.47.09.000:Text:EDDM") with (s2t "N048.21.13.000:E011.47.09.000:Text:EDD" ++ [77%N]) in E. apply app_inj_tail in E. destruct E as [_ <-]. reflexivity.
      * intros c v E. injection E as <- _. split; discriminate.
    + constructor; [|constructor; [|constructor]].
      * exists (mkPosition (s2t "Munich Tower") (s2t "EDDM_TWR") (s2t "118.700") (s2t "MTW") (s2t "EDDM") (s2t "M") (s2t "TWR") (Some (4201, 4277)%N) [p]).
        split; [constructor; [exact W2 | repeat (apply Forall_cons; [apply W; reflexivity|]); apply Forall_nil]|]. split; [apply (NM (s2t "118") (s2t "700")); (reflexivity || discriminate)|].
        repeat (split; [reflexivity|]). split; [|split; [cbn; repeat constructor | repeat constructor; exact P]]. cbn. repeat split; try reflexivity; apply WH; (reflexivity || discriminate).
      * exists (mkPosition [] (s2t "EDDM_GND") (s2t "121.975") (s2t "MGN") (s2t "EDDM") [] (s2t "GND") None []).
        split; [repeat (apply Forall_cons; [apply W; reflexivity|]); apply Forall_nil|]. split; [apply (NM (s2t "121") (s2t "975")); (reflexivity || discriminate)|].
        repeat (split; [reflexivity|]). split; [cbn; repeat constructor | constructor].
    + split; [|split].
      * constructor; [|constructor; [|constructor; [|constructor; [|constructor]]]]; cbn [good_airspace].
        -- split; [apply W; reflexivity|]. constructor; [split; [|split]; apply W; reflexivity | repeat (apply Forall_cons; [exists p; exact P|]); apply Forall_nil].
        -- split; [apply W; reflexivity|]. split; [discriminate|]. split; [apply Forall_forall, forallb_forall; vm_compute; reflexivity|].
           split; [apply (NM (s2t "5") (s2t "5")); (reflexivity || discriminate) | constructor].
        -- split; [apply W; reflexivity|]. split; [apply WH; (reflexivity || discriminate)|]. split; [apply WH; (reflexivity || discriminate)|].
           constructor; [repeat (apply Forall_cons; [apply W; reflexivity|]); apply Forall_nil|]. constructor; [repeat (apply Forall_cons; [apply W; reflexivity|]); apply Forall_nil|].
           constructor; [split; apply CD; (reflexivity || discriminate)|]. constructor; [|constructor].
           split; [apply W; reflexivity|]. split; [intros w; discriminate|]. intros w E. injection E as <-. apply CD; (reflexivity || discriminate).
        -- split; [intros w; discriminate|]. split; [intros w E; injection E as <-; apply CD; (reflexivity || discriminate)|].
           split; [intros w E; injection E as <-; split; [apply W; reflexivity | discriminate]|]. split; [intros w; discriminate|]. split; [intros w; discriminate|].
           split; [|split]; apply W; reflexivity.
      * repeat constructor; try (exists []; reflexivity). eexists. eexists (mkEseSector _ _ _ _ _ _ _ _). split; [reflexivity|]. cbn [es_id es_bottom es_top es_border es_owner es_dep es_arr es_runways].
        split; [reflexivity|]. split; [vm_compute; reflexivity|]. split; [vm_compute; reflexivity|]. repeat split; reflexivity.
      * repeat constructor; try (exists []; reflexivity). eexists. eexists (mkConstraint _ _ _ _ _ _ _ _ _ _ _). split; [reflexivity|]. cbn [c_prev c_dep c_fix c_next c_arr c_exit c_entry c_climb c_descent c_desc c_timing k_prev k_dep k_fix k_next k_arr k_exit k_entry k_climb k_descent k_desc].
        repeat (split; [reflexivity|]). split; [instantiate (1 := None); exact I|]. split; [instantiate (1 := Some 5000%N); split; [apply WH; (reflexivity || discriminate) | vm_compute; reflexivity]|]. split; reflexivity.
    + constructor; [|constructor; [|constructor]].
      * split; [apply CD; (reflexivity || discriminate)|]. split; [intros r E; injection E as <-; exists 50%N, 54%N, (s2t "R"); repeat split; cbn; tauto|]. split; [apply W; reflexivity|].
        split; [repeat constructor; discriminate | repeat constructor; discriminate].
      * split; [apply CD; (reflexivity || discriminate)|]. split; [intros r E; discriminate|]. split; [apply W; reflexivity|]. split; constructor.
  - assert (LA : forall ls odd, laid ese_space [s2t ";"] ls (ex_layout odd ls)).
    { induction ls as [|l ls IH]; intros odd; [constructor|]. destruct odd; cbn [ex_layout].
      - apply laid_cons; [repeat constructor | right; reflexivity | | repeat constructor | apply IH].
        apply idles_cons; [|left; reflexivity | constructor]. right. exists (s2t " "), (s2t ";"), (s2t " remark"). split; [reflexivity|]. split; [repeat constructor|]. split; [left; reflexivity | repeat constructor; discriminate].
      - apply laid_cons; [constructor | left; reflexivity | constructor | constructor | apply IH]. }
    eexists _, _, _. split; [reflexivity|]. split; [|split; [constructor | apply LA]].
    apply idles_cons; [|left; reflexivity | constructor]. right. exists [], (s2t ";"), (s2t "remark"). split; [reflexivity|]. split; [constructor|]. split; [left; reflexivity | repeat constructor; discriminate].
Qed.
