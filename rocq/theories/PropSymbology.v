(** C57 C47: symbology files. *)
From Verif Require Import Base Num Float FloatParse Colours Settings Peg Grammars SpecPeg Trees SpecPairs PairsProofs Verdict SpecKeyed SpecSymbol SymbologyParse SpecSymbology SymbologyProofs.
Local Open Scope string_scope.
Local Open Scope list_scope.

Definition sg_lines (l : list string) : text := flat_map (fun s => s2t s ++ [13; 10]%N) l.
Definition sg_test : text := sg_lines [
  "SYMBOLOGY"; "SYMBOLSIZE"; "Sector:msaw:32768:2.0:0:2:7"; "Sector:inactive sector background:13158600:3.5:4:0:14"; "Sector:wrong:99999999:3.5:0:0:7"; "Sector:msaw:255:1.5:1:-1:12"; "Sector:msaw:-1:1.5:1:1:0";
  "SYMBOL:0"; "SYMBOLITEM:MOVETO -3 -3"; "SYMBOLITEM:LINETO 3 -3.5"; "SYMBOL:99"; "SYMBOLITEM:SETPIXEL 0 0"; "SYMBOL:0"; "SYMBOLITEM:ARC 0 0 3 -450 720"; "SYMBOLITEM:ARC 0 0 3 4 0 90"; "SYMBOLITEM:POLYGON 0 0 1 1 1 0"; "SYMBOLITEM:FILLRECT 0 0 1 2";
  "m_ClipArea:0"; "END"].
(** a symbol number below zero, an angle beyond 64 bits *)
Definition sg_ruin : text := sg_lines ["SYMBOLOGY"; "SYMBOLSIZE"; "Sector:msaw:32768:2.0:0:2:7"; "SYMBOL:-1"; "SYMBOLITEM:MOVETO -3 -3"; "m_ClipArea:0"; "END"].
Definition sg_ruin2 : text := sg_lines ["SYMBOLOGY"; "SYMBOLSIZE"; "Sector:msaw:32768:2.0:0:2:7"; "SYMBOL:0"; "SYMBOLITEM:ARC 0 0 3 9223372036854775808 0"; "m_ClipArea:0"; "END"].

(** The items of a file: for every folder and name, the last item with them whose colour is a colour. *)
Theorem C57_items t kids s : parsed symbology_grammar "symbology" t kids -> parse_symbology t = Ret s ->
  forall id, match get id (sg_items s) with
    | Some x => exists p, last_keyed names_item (of_rule "item" kids) id p /\ reads_item p x
    | None => Forall (fun q => ~ names_item q id) (of_rule "item" kids)
    end.
Proof. intros P E. destruct (symbology_file_ok t kids P) as [[_ [v [E' R]]]|[_ E']]; rewrite E in E'; [|discriminate]. injection E' as <-. apply R. Qed.
Print Assumptions C57_items.
(** The symbols of a file: for every type, the rules of the last symbol with its number, in order. *)
Theorem C57_symbols t kids s : parsed symbology_grammar "symbology" t kids -> parse_symbology t = Ret s ->
  forall ty, match get ty (sg_symbols s) with
    | Some rules => exists p, last_keyed names_type (of_rule "symbol" kids) ty p /\ Forall2 reads_rule (symbol_rules p) rules
    | None => Forall (fun q => ~ names_type q ty) (of_rule "symbol" kids)
    end.
Proof. intros P E. destruct (symbology_file_ok t kids P) as [[_ [v [E' R]]]|[_ E']]; rewrite E in E'; [|discriminate]. injection E' as <-. apply R. Qed.
Print Assumptions C57_symbols.
(** Reading a file succeeds exactly if the numbers of its items fit into 32 bits, those of its symbols into 32 bits without a sign and its angles into 64 bits; otherwise it panics. Other texts are errors. *)
Theorem C47_symbology t kids : parsed symbology_grammar "symbology" t kids ->
  (symbology_fits kids -> exists s, parse_symbology t = Ret s) /\ (~ symbology_fits kids -> parse_symbology t = Panic).
Proof. intros P. destruct (symbology_file_ok t kids P) as [[F [v [E _]]]|[F E]]; split; intros H; try contradiction; eauto. Qed.
Print Assumptions C47_symbology.
Theorem C47_symbology_rejects t : unparsed symbology_grammar "symbology" t -> parse_symbology t = Err.
Proof. apply symbology_err. Qed.
Print Assumptions C47_symbology_rejects.
Theorem C47_symbology_refuted : parse_symbology sg_ruin = Panic /\ parse_symbology sg_ruin2 = Panic.
Proof. split; vm_compute; reflexivity. Qed.
Print Assumptions C47_symbology_refuted.

Example C57_nonvacuous : exists kids s, parsed symbology_grammar "symbology" sg_test kids /\ parse_symbology sg_test = Ret s /\
  List.length (of_rule "item" kids) = 5 /\ List.length (of_rule "symbol" kids) = 3 /\
  map (fun x => (snd (fst x), si_colour (snd x), si_weight (snd x), si_align (snd x))) (sg_items s) =
    [(s2t "msaw", mkColour 255 0 0 255, (-1)%Z, (HRight, VTop)); (s2t "inactive sector background", mkColour 200 200 200 255, 0%Z, (HRight, VBottom))] /\
  map (fun x => (fst x, List.length (snd x))) (sg_symbols s) = [(StAirport, 4)] /\
  exists p r, In (SArc p r (-90) 0) (List.concat (map snd (sg_symbols s))).
Proof.
  destruct (top_cases 10 "symbology" symbology_grammar "symbology" eq_refl ltac:(eexists; reflexivity) sg_test) as [[kids [P E]]|[_ E]]; [|vm_compute in E; discriminate].
  exists kids. destruct (symbology_file_ok _ _ P) as [[_ [s [X R]]]|[_ X]]; [|vm_compute in X; discriminate]. clear R. exists s. split; [exact P|]. split; [exact X|].
  clear P. vm_compute in X. injection X as <-. vm_compute in E. injection E as <-. split; [reflexivity|]. split; [reflexivity|]. split; [vm_compute; reflexivity|]. split; [reflexivity|].
  eexists _, _. left. reflexivity.
Qed.
Example C47_symbology_nonvacuous : exists kids, parsed symbology_grammar "symbology" sg_ruin kids /\ ~ symbology_fits kids.
Proof.
  destruct (top_cases 10 "symbology" symbology_grammar "symbology" eq_refl ltac:(eexists; reflexivity) sg_ruin) as [[kids [P E]]|[_ E]]; [|vm_compute in E; discriminate].
  exists kids. split; [exact P|]. destruct (symbology_file_ok _ _ P) as [[_ [s [X _]]]|[F _]]; [vm_compute in X; discriminate | exact F].
Qed.
