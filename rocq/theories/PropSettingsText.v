(** C84: TopSky settings files are read as their lines are written. *)
From Verif Require Import Base Num Colours SpecText SpecFields SpecSymbologyText TopskyParse SpecSettingsText SettingsText.
Local Open Scope string_scope.
Local Open Scope list_scope.

(** A settings file, whose lines are written as specified, with empty lines, indentation and remarks between them and behind them, is read:
    for every name, the colour is that of the last line that gives one, and so is the value.  What is in sections is left out. *)
Theorem C84_settings es ss t : Forall well_written es -> Forall section_written ss -> settings_layout (settings_lines es ss) t ->
  exists colours values, parse_topsky_settings t = Ret (colours, values) /\ last_counts (colours_said es) colours /\ last_counts (values_said es) values.
Proof. intros W WS L. eexists _, _. split; [eapply settings_text_reads; eassumption|]. split; intros k; apply get_of_list. Qed.
Print Assumptions C84_settings.
(** Neither the layout nor the sections matter. *)
Theorem C84_layout_irrelevant es ss ss' t t' : Forall well_written es -> Forall section_written ss -> Forall section_written ss' ->
  settings_layout (settings_lines es ss) t -> settings_layout (settings_lines es ss') t' -> parse_topsky_settings t = parse_topsky_settings t'.
Proof. intros W WS WS' L L'. rewrite (settings_text_reads es ss t W WS L). symmetry. eapply settings_text_reads; eassumption. Qed.
Print Assumptions C84_layout_irrelevant.
(** But an empty line or a blank at the start of the file makes it unreadable: *)
Theorem C84_first_line_refuted : ~ forall t r, parse_topsky_settings t = Ret r -> exists r', parse_topsky_settings ([10]%N ++ t) = Ret r'.
Proof. intros H. destruct (H (s2t "A=b") ([], [(s2t "A", s2t "b")])) as [r E]; [vm_compute; reflexivity|]. vm_compute in E. discriminate E. Qed.
Print Assumptions C84_first_line_refuted.
Theorem C84_first_blank_refuted : ~ forall t r, parse_topsky_settings t = Ret r -> exists r', parse_topsky_settings (s2t " " ++ t) = Ret r'.
Proof. intros H. destruct (H (s2t "A=b") ([], [(s2t "A", s2t "b")])) as [r E]; [vm_compute; reflexivity|]. vm_compute in E. discriminate E. Qed.
Print Assumptions C84_first_blank_refuted.
(** And so does a setting whose name starts with Color_ and whose value is not a colour; other values may be anything. *)
Theorem C84_colour_refuted : ~ forall n v, named n -> value v -> exists r, parse_topsky_settings (n ++ s2t "=" ++ v) = Ret r.
Proof.
  intros H. destruct (H (s2t "Color_A") (s2t "red")) as [r E].
  - split; [discriminate|]. split; [|intros v E; discriminate E].
    repeat (apply Forall_cons; [first [left; reflexivity | right; left; reflexivity]|]). apply Forall_nil.
  - split; [repeat (apply Forall_cons; [split; discriminate|]); apply Forall_nil|]. split; [|split].
    + split; intros a b E; [injection E as <- _; reflexivity|]. change (s2t "red") with (s2t "re" ++ s2t "d") in E. apply app_inj_tail in E. destruct E as [_ <-]. reflexivity.
    + repeat (apply Forall_cons; [discriminate|]); apply Forall_nil.
    + intros a b E. repeat (destruct a as [|? a]; [discriminate E|]; injection E as _ E). destruct a; discriminate E.
  - vm_compute in E. discriminate E.
Qed.
Print Assumptions C84_colour_refuted.

Definition settings_example : list entry :=
  [Coloured (s2t "A") (s2t "1") (s2t "2") (s2t "255"); Valued (s2t "Airport/x") (s2t "ED DM/1"); Valued (s2t "Empty") []; Uncoloured (s2t "B");
   Coloured (s2t "A") (s2t "1") (s2t "2") (s2t "256"); Valued (s2t "Empty") (s2t "no")].
Definition settings_sections : list section := [Section_ true (s2t "EDMM_N") [Valued (s2t "Empty") (s2t "x")]; Section_ false (s2t "_1") []].
Definition settings_example_text : text :=
  s2t "; x" ++ [13; 10]%N ++ s2t "Color_A=1,2,255 // remark" ++ [10; 10]%N ++ s2t "  Airport/x=ED DM/1 ; y" ++ [10]%N ++ s2t "Empty=" ++ [10]%N
    ++ s2t "Color_B" ++ [10]%N ++ s2t "Color_A=1,2,256" ++ [10]%N ++ s2t "Empty=no" ++ [10]%N ++ s2t "[EDMM_N]" ++ [10]%N ++ s2t "Empty=x" ++ [10]%N ++ s2t "{_1}".
Lemma named_by w : w <> [] -> forallb (fun c => is_alnum c || existsb (N.eqb c) (s2t "_/")) w = true -> (forall v, w <> s2t "//" ++ v) -> named w.
Proof.
  intros N F C. split; [exact N|]. split; [|exact C]. rewrite forallb_forall in F. apply Forall_forall. intros c I. specialize (F c I). apply orb_prop in F.
  destruct F as [F|F]; [left; exact F|]. right. apply existsb_exists in F. destruct F as [d [I' E]]. apply N.eqb_eq in E. subst d. exact I'.
Qed.
Example C84_nonvacuous : Forall well_written settings_example /\ Forall section_written settings_sections /\
  settings_layout (settings_lines settings_example settings_sections) settings_example_text /\
  parse_topsky_settings settings_example_text = Ret ([(s2t "A", (s2t "A", mkColour 1 2 255 255))], [(s2t "Airport/x", s2t "ED DM/1"); (s2t "Empty", s2t "no")]).
Proof.
  assert (NM : forall w v, (named w /\ (forall u, w <> s2t "Color_" ++ u) /\ value v) -> well_written (Valued w v)) by auto.
  assert (DG : forall w, w <> [] -> forallb is_digit w = true -> digits w).
  { intros w N F. split; [exact N|]. rewrite forallb_forall in F. apply Forall_forall. exact F. }
  assert (VA : forall w, forallb (fun c => negb ((c =? 10) || (c =? 13) || (c =? 59)))%N w = true -> trimmed w -> (forall a b, w <> a ++ s2t "//" ++ b) -> value w).
  { intros w F T C. rewrite forallb_forall in F. split; [|split; [exact T | split; [|exact C]]]; apply Forall_forall; intros c I; specialize (F c I);
      apply negb_true_iff in F; rewrite !orb_false_iff, !N.eqb_neq in F; tauto. }
  assert (NE : named (s2t "Empty")) by (apply named_by; [discriminate | reflexivity | intros v E; discriminate E]).
  assert (VX : forall c, is_blank c = false -> c <> 10%N -> c <> 13%N -> c <> 59%N -> value [c]).
  { intros c B X Y Z. split; [repeat constructor; assumption|]. split; [|split; [repeat constructor; assumption|]].
    - split; intros a b E; [injection E as <- _; exact B|]. destruct a as [|? a]; [injection E as <-; exact B|]. injection E as _ E. destruct a; discriminate E.
    - intros a b E. destruct a as [|? a]; [discriminate E|]. injection E as _ E. destruct a; discriminate E. }
  split; [|split; [|split]].
  - unfold settings_example. apply Forall_cons; [|apply Forall_cons; [|apply Forall_cons; [|apply Forall_cons; [|apply Forall_cons; [|apply Forall_cons; [|apply Forall_nil]]]]]].
    + split; [apply named_by; [discriminate | reflexivity | intros v E; discriminate E]|]. split; [|split]; apply DG; (discriminate || reflexivity).
    + apply NM. split; [apply named_by; [discriminate | reflexivity | intros v E; discriminate E]|]. split; [intros u E; discriminate E|]. apply VA; [reflexivity| |].
      * split; intros a b E; [injection E as <- _; reflexivity|]. change (s2t "ED DM/1") with (s2t "ED DM/" ++ s2t "1") in E. apply app_inj_tail in E. destruct E as [_ <-]. reflexivity.
      * intros a b E. repeat (destruct a as [|? a]; [discriminate E|]; injection E as _ E). destruct a; discriminate E.
    + apply NM. split; [exact NE|]. split; [intros u E; discriminate E|]. apply VA; [reflexivity | | intros a b E; destruct a; discriminate E]. split; intros a b E; [discriminate E | destruct a; discriminate E].
    + apply named_by; [discriminate | reflexivity | intros v E; discriminate E].
    + split; [apply named_by; [discriminate | reflexivity | intros v E; discriminate E]|]. split; [|split]; apply DG; (discriminate || reflexivity).
    + apply NM. split; [exact NE|]. split; [intros u E; discriminate E|]. apply VA; [reflexivity| |].
      * split; intros a b E; [injection E as <- _; reflexivity|]. change (s2t "no") with (s2t "n" ++ s2t "o") in E. apply app_inj_tail in E. destruct E as [_ <-]. reflexivity.
      * intros a b E. repeat (destruct a as [|? a]; [discriminate E|]; injection E as _ E). destruct a; discriminate E.
  - unfold settings_sections. apply Forall_cons; [|apply Forall_cons; [|apply Forall_nil]].
    + split; [apply named_by; [discriminate | reflexivity | intros v E; discriminate E]|]. apply Forall_cons; [|apply Forall_nil]. apply NM. split; [exact NE|]. split; [intros u E; discriminate E|].
      apply (VX 120%N); (reflexivity || discriminate).
    + split; [apply named_by; [discriminate | reflexivity | intros v E; discriminate E] | apply Forall_nil].
  - assert (IL : forall w : text, forallb (fun c => negb ((c =? 10)%N || (c =? 13)%N)) w = true -> in_line w).
    { intros w H. rewrite forallb_forall in H. apply Forall_forall. intros c I. specialize (H c I). apply negb_true_iff in H. rewrite orb_false_iff, !N.eqb_neq in H. exact H. }
    assert (T0 : trailing []) by (split; [left; constructor | discriminate]).
    assert (TR : forall h c, In h marks -> in_line c -> trailing (s2t " " ++ h ++ c)).
    { intros h c I C. split; [right; exists (s2t " "), h, c; split; [reflexivity | split; [repeat constructor | auto]]|]. intros d v E. injection E as <- _. reflexivity. }
    assert (LF : forall l ls t, follows ls t -> follows (l :: ls) ([] ++ [10]%N ++ [] ++ [] ++ l ++ t)).
    { intros l ls t H. apply follows_line; [exact T0 | left; reflexivity | constructor | constructor | exact H]. }
    assert (LAY : exists t, settings_layout (settings_lines settings_example settings_sections) t /\ t = settings_example_text); [|destruct LAY as [t [LAY <-]]; exact LAY].
    eexists. split. 2: shelve. unfold settings_lines, settings_example, settings_sections. cbn [map flat_map section_lines app].
    eapply (begins_later (s2t "; x") [13; 10]%N [] []); [right; exists [], (s2t ";"), (s2t " x"); split; [reflexivity | split; [constructor | split; [left; reflexivity | apply IL; reflexivity]]] | discriminate | right; reflexivity | constructor | constructor|].
    eapply (follows_line (s2t " // remark") [10]%N ([] ++ [10]%N ++ []) (s2t "  ")); [apply (TR (s2t "//") (s2t " remark")); [right; left; reflexivity | apply IL; reflexivity] | left; reflexivity | apply idles_cons; [left; constructor | left; reflexivity | constructor] | repeat constructor|].
    eapply (follows_line (s2t " ; y") [10]%N [] []); [apply (TR (s2t ";") (s2t " y")); [left; reflexivity | apply IL; reflexivity] | left; reflexivity | constructor | constructor|].
    do 6 eapply LF. apply (follows_eof []). exact T0.
    Unshelve. reflexivity.
  - vm_compute. reflexivity.
Qed.
