(** C81: .asr files are read as their lines are written. *)
From Verif Require Import Base Num Float FloatParse Peg Grammars SpecPeg Trees SpecText SpecPairs SpecFields Asr SpecAsr SpecAsrText AsrTextLoads.
From Verif Require AsrText.
Local Open Scope string_scope.
Local Open Scope list_scope.

(** A file of setting lines, between which there may be empty lines and remarks, has one pair for each line, in order,
    and its fields are as written. *)
Theorem C81_pairs ls t : ls <> [] -> Forall written ls -> asr_layout ls t -> parsed asr_grammar "asr" t (map pair_of ls ++ [T "EOI" [] []]).
Proof. apply AsrText.asr_text_parsed. Qed.
Print Assumptions C81_pairs.
(** So it is read, if the numbers are in range, and each setting, item and plugin value is that of the written lines
    (in the sense of C39: the first line of a setting counts, the last one of a plugin value, and all items). *)
Theorem C81_settings ls t : ls <> [] -> Forall written ls -> asr_layout ls t -> Forall in_range ls ->
  exists a, asr_parse t = Ret a /\ asr_scalars (map pair_of ls) a /\ asr_items (map pair_of ls) (asr_map_of a) /\ asr_plugins (map pair_of ls) (asr_plugin_settings a).
Proof. intros N F L R. apply (asr_text_reads ls t N F L), R. Qed.
Print Assumptions C81_settings.
(** If one is not, reading it panics, whatever the other lines are. *)
Theorem C81_out_of_range ls t : ls <> [] -> Forall written ls -> asr_layout ls t -> Exists (fun l => ~ in_range l) ls -> asr_parse t = Panic.
Proof. intros N F L R. apply (asr_text_reads ls t N F L), R. Qed.
Print Assumptions C81_out_of_range.
(** Empty lines, remarks and the kind of line ends do not matter. *)
Theorem C81_layout_irrelevant ls t t' : ls <> [] -> Forall written ls -> asr_layout ls t -> asr_layout ls t' -> asr_parse t = asr_parse t'.
Proof. apply asr_text_same. Qed.
Print Assumptions C81_layout_irrelevant.

Definition asr_lines : list asr_line :=
  [("above", [Lit "ABOVE:"; Tok "INTEGER" (s2t "24500")]);
   ("runways", [Lit "Runways:"; Tok "airport" (s2t "EDDM Munich"); Lit " "; Tok "runway_desig" (s2t "08L"); Lit "-"; Tok "runway_desig" (s2t "26"); Lit ":"; Tok "ext_centerline" (s2t "extended centerline 1")]);
   ("ndbs", [Lit "NDBs:"; Tok "multivalue" (s2t "DMS;x"); Lit ":"; Tok "frequency" (s2t "frequency")]);
   ("plugin", [Lit "PLUGIN:"; Tok "multivalue" (s2t "TopSky"); Lit ":"; Tok "multivalue" []; Lit ":"; Tok "value" (s2t "a:b")]);
   ("window_area", [Lit "WINDOWAREA:"; Tok "coord_part" (s2t "48.1"); Lit ":"; Tok "coord_part" (s2t "-11"); Lit ":"; Tok "coord_part" (s2t "49.5"); Lit ":"; Tok "coord_part" (s2t "12.25")])].
Definition asr_lines_text : text := s2t ";saved" ++ [13; 10; 10]%N ++ s2t "ABOVE:24500" ++ [13; 10]%N ++ s2t "Runways:EDDM Munich 08L-26:extended centerline 1" ++ [10; 10]%N
  ++ s2t ";x" ++ [10; 10]%N ++ s2t "NDBs:DMS;x:frequency" ++ [10]%N ++ s2t "PLUGIN:TopSky::a:b" ++ [10]%N ++ s2t "WINDOWAREA:48.1:-11:49.5:12.25" ++ [10]%N.
Example C81_nonvacuous : asr_lines <> [] /\ Forall written asr_lines /\ asr_layout asr_lines asr_lines_text /\ Forall in_range asr_lines /\
  written ("leader", [Lit "LEADER:"; Tok "INTEGER" (s2t "200")]) /\ ~ in_range ("leader", [Lit "LEADER:"; Tok "INTEGER" (s2t "200")]).
Proof.
  assert (IL : forall s : text, forallb (fun c => negb ((c =? 10)%N || (c =? 13)%N)) s = true -> in_line s).
  { intros s H. rewrite forallb_forall in H. apply Forall_forall. intros c I. specialize (H c I). apply negb_true_iff, orb_false_iff in H.
    destruct H as [A B]. split; intros ->; discriminate. }
  assert (NM : forall s : text, forallb (fun c => negb ((c =? 58)%N || (c =? 10)%N || (c =? 13)%N)) s = true -> no_remark s -> name s).
  { intros s H N. split; [|split; [|exact N]]; [|apply IL]; rewrite ?forallb_forall in *; rewrite ?Forall_forall; intros c I; specialize (H c I).
    - intros ->. discriminate.
    - destruct (c =? 58)%N; [discriminate H | exact H]. }
  assert (DG : forall s : text, s <> [] -> forallb is_digit s = true -> digits s).
  { intros s N H. split; [exact N|]. apply Forall_forall. apply forallb_forall. exact H. }
  assert (NR : forall s : text, match s with 59%N :: _ => false | _ => true end = true -> no_remark s) by (intros s H v ->; discriminate H).
  split; [discriminate|]. split; [|split; [|split; [|split]]].
  - apply Forall_cons; [|apply Forall_cons; [|apply Forall_cons; [|apply Forall_cons; [|apply Forall_cons; [|apply Forall_nil]]]]].
    + apply w_whole; [left; reflexivity|]. exists (s2t "24500"). split; [left; reflexivity | apply DG; [discriminate | reflexivity]].
    + apply w_runway.
      * split; [split; [apply IL; reflexivity | apply NR; reflexivity]|]. intros u c v E.
        repeat (destruct u as [|? u]; [first [discriminate E | injection E as <- <-; reflexivity]|]; first [discriminate E | injection E as _ E]).
      * exists 48%N, 56%N, (s2t "L"). repeat split. right. left. reflexivity.
      * exists 50%N, 54%N, []. repeat split. left. reflexivity.
      * right. right. left. reflexivity.
    + apply (w_kind "ndbs" "NDBs:" navaid_kinds _ "frequency" "frequency"); [right; left; reflexivity | apply NM; [reflexivity | apply NR; reflexivity] | right; right; left; reflexivity].
    + apply w_plugin; [apply NM; [reflexivity | apply NR; reflexivity] | apply NM; [reflexivity | apply NR; reflexivity] | split; [apply IL; reflexivity | apply NR; reflexivity]].
    + apply w_window.
      * exists (s2t "48.1"). split; [left; reflexivity|]. right. exists (s2t "48"), (s2t "1"). split; [reflexivity|]. split; apply DG; (discriminate || reflexivity).
      * exists (s2t "11"). split; [right; reflexivity|]. left. apply DG; (discriminate || reflexivity).
      * exists (s2t "49.5"). split; [left; reflexivity|]. right. exists (s2t "49"), (s2t "5"). split; [reflexivity|]. split; apply DG; (discriminate || reflexivity).
      * exists (s2t "12.25"). split; [left; reflexivity|]. right. exists (s2t "12"), (s2t "25"). split; [reflexivity|]. split; apply DG; (discriminate || reflexivity).
  - exists (s2t ";saved" ++ [13; 10]%N ++ [] ++ [10]%N ++ []), []. eexists. split; [|split; [|split; [constructor|]]]; [| |
      apply (laid_cons _ _ _ _ [] [13; 10]%N [] []); [constructor | right; reflexivity | constructor | constructor|];
      apply (laid_cons _ _ _ _ [] [10]%N ([] ++ [10]%N ++ s2t ";x" ++ [10]%N ++ [] ++ [10]%N ++ []) []); [constructor | left; reflexivity | | constructor|];
      [|apply (laid_cons _ _ _ _ [] [10]%N [] []); [constructor | left; reflexivity | constructor | constructor|];
        apply (laid_cons _ _ _ _ [] [10]%N [] []); [constructor | left; reflexivity | constructor | constructor|];
        apply (laid_cons _ _ _ _ [] [10]%N [] []); [constructor | left; reflexivity | constructor | constructor|]; apply laid_nil]].
    + reflexivity.
    + apply idles_cons; [right; exists [], (s2t ";"), (s2t "saved"); split; [reflexivity|]; split; [constructor|]; split; [left; reflexivity | apply IL; reflexivity] | right; reflexivity|].
      apply idles_cons; [left; constructor | left; reflexivity | constructor].
    + apply idles_cons; [left; constructor | left; reflexivity|].
      apply idles_cons; [right; exists [], (s2t ";"), (s2t "x"); split; [reflexivity|]; split; [constructor|]; split; [left; reflexivity | apply IL; reflexivity] | left; reflexivity|].
      apply idles_cons; [left; constructor | left; reflexivity | constructor].
  - apply Forall_forall. intros l I s J. cbn in I. repeat (destruct I as [<-|I]; [cbn in J; repeat (destruct J as [J|J]; [try discriminate J|]); try contradiction|]); try contradiction.
    injection J as <-. split; [|split]; intros X; try discriminate X. vm_compute. discriminate.
  - apply w_whole; [right; right; right; left; reflexivity|]. exists (s2t "200"). split; [left; reflexivity | apply DG; [discriminate | reflexivity]].
  - intros R. destruct (R (s2t "200")) as [_ [_ X]]; [right; left; reflexivity|]. exact (X eq_refl eq_refl).
Qed.
