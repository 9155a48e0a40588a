(** Property theorems: the text of symbology files (C80). *)
From Verif Require Import Base Num Float FloatParse Colours SpecColours Settings SpecText SpecFields Peg Grammars Trees SymbologyParse SpecSymbology SpecSymbol SpecDrawn SpecSymbologyText SymbologyText.
Local Open Scope string_scope.
Local Open Scope list_scope.

(** A symbology file with lines of items and symbols is read, whatever white space, empty lines and line ends there
    are.  An item has the colour, size, style, weight and alignment of the last line with its folder and name, and a
    symbol is drawn by the rules of the last entry with its number. *)
Theorem C80_symbology items os symbols ss clip t :
  items <> [] -> symbols <> [] -> Forall2 reads_item_line items os -> Forall2 reads_symbol_lines symbols ss -> whole clip ->
  layout symbology_space [] (symbology_lines items symbols clip) t ->
  exists s, parse_symbology t = Ret s /\ last_counts (List.concat os) (sg_items s) /\ last_counts (List.concat ss) (sg_symbols s).
Proof.
  intros A B C D E F. eexists. split; [exact (symbology_text_reads items os symbols ss clip t A B C D E F)|]. split; intros k; apply get_of_list.
Qed.
Print Assumptions C80_symbology.
(** Two files with the same lines load to the same symbology. *)
Theorem C80_layout_irrelevant items os symbols ss clip t t' :
  items <> [] -> symbols <> [] -> Forall2 reads_item_line items os -> Forall2 reads_symbol_lines symbols ss -> whole clip ->
  layout symbology_space [] (symbology_lines items symbols clip) t -> layout symbology_space [] (symbology_lines items symbols clip) t' ->
  parse_symbology t = parse_symbology t'.
Proof.
  intros A B C D E F F'. rewrite (symbology_text_reads items os symbols ss clip t A B C D E F), (symbology_text_reads items os symbols ss clip t' A B C D E F'). reflexivity.
Qed.
Print Assumptions C80_layout_irrelevant.

Definition ex_items := [
  mkItemLine (s2t "Airports") (s2t "symbol") (s2t "13158600") (s2t "3.5") (s2t "0") (s2t "0") (s2t "7");
  mkItemLine [] (s2t "two words") (s2t "-1") (s2t "3") (s2t "4") (s2t "2") (s2t "14");
  mkItemLine (s2t "Airports") (s2t "symbol") (s2t "255") (s2t ".5") (s2t "2") (s2t "+1") (s2t "1")].
Definition numbers (d : string) (l : list string) : list (text * text) := map (fun n => (s2t d, s2t n)) l.
Definition ex_symbols := [
  mkSymbolLines (s2t "0") [mkDrawn "MOVETO" (numbers " " ["-1"; "2.5"]); mkDrawn "LINETO" (numbers ":" ["0"; "0"]); mkDrawn "ARC" (numbers " " ["0"; "0"; "4"; "0"; "-360"]);
    mkDrawn "FILLARC" (numbers ":" ["0"; "0"; "4"; "2.5"; "0"; "450"]); mkDrawn "POLYGON" (numbers " " ["0"; "0"; "1"; "1"; "0"; "2"])];
  mkSymbolLines (s2t "24") [mkDrawn "SETPIXEL" (numbers " " ["0"; "0"])];
  mkSymbolLines (s2t "3") [mkDrawn "ELLIPSE" (numbers " " ["0"; "0"; "4"]); mkDrawn "ELLIPSE" [(s2t " ", s2t "0"); (s2t ":", s2t "0"); (s2t ":", s2t "4"); (s2t " ", s2t "5")];
    mkDrawn "FILLRECT" (numbers " " ["0"; "0"; "1"; "1"])]].
(** lines, white space, ends, lines without content, and the indentation of the next line *)
Fixpoint ex_rows (odd : bool) (ls : list text) : text :=
  match ls with
  | [] => []
  | l :: ls => if odd then l ++ s2t " " ++ [13; 10]%N ++ (s2t "  " ++ [10]%N ++ []) ++ [9]%N ++ ex_rows false ls else l ++ [] ++ [10]%N ++ [] ++ [] ++ ex_rows true ls
  end.
Definition ex_file (ls : list text) : text := ([9]%N ++ [10]%N ++ []) ++ s2t " " ++ ex_rows true ls.
Definition f64v (s : string) : f64 := match parse_f64 (s2t s) with Some x => x | None => f64_of_dec false 0 0 end.
Definition f32v (s : string) : f32 := match parse_f32 (s2t s) with Some x => x | None => f64_of_dec false 0 0 end.
Definition ex_pt (a b : string) : point := (f64v a, f64v b).
Example C80_nonvacuous :
  (exists os, Forall2 reads_item_line ex_items os /\ List.length (List.concat os) = 2 /\
    get (s2t "Airports", s2t "symbol") (rev (List.concat os)) = Some (mkSItem (s2t "Airports") (s2t "symbol") (mkColour 255 0 0 255) (f32v ".5") (s2t "DOT") 1 (HLeft, VCenter))) /\
  Forall2 reads_symbol_lines ex_symbols
    [[(StAirport, [SMove (ex_pt "-1" "2.5"); SLine (ex_pt "0" "0"); SArc (ex_pt "0" "0") (f64v "4") 0 0; SFilledEllipticArc (ex_pt "0" "0") (f64v "4") (f64v "2.5") 0 90;
        SPolygon [ex_pt "0" "0"; ex_pt "1" "1"; ex_pt "0" "2"]])]; [];
     [(StFix, [SFilledArc (ex_pt "0" "0") (f64v "4") 0 0; SFilledEllipticArc (ex_pt "0" "0") (f64v "4") (f64v "5") 0 0;
        SPolygon [ex_pt "0" "0"; ex_pt "1" "0"; ex_pt "1" "1"; ex_pt "0" "1"]])]] /\
  layout symbology_space [] (symbology_lines ex_items ex_symbols (s2t "5")) (ex_file (symbology_lines ex_items ex_symbols (s2t "5"))).
Proof.
  assert (TR : forall w : text, Forall (fun c => is_blank c = false) w -> trimmed w).
  { intros w F. rewrite Forall_forall in F. split; [intros c v -> | intros v c ->]; apply F; [left; reflexivity | apply in_or_app; right; left; reflexivity]. }
  assert (DG : forall w, w <> [] -> Forall (fun c => is_digit c = true) w -> digits w) by (intros w A B; split; assumption).
  assert (WH : forall w, (w <> [] /\ Forall (fun c => is_digit c = true) w) \/ (exists v, (w = s2t "-" ++ v \/ w = s2t "+" ++ v) /\ v <> [] /\ Forall (fun c => is_digit c = true) v) -> whole w).
  { intros w [[A B]|[v [[-> | ->] [A B]]]]; [exists [], w | exists (s2t "-"), v | exists (s2t "+"), v]; (split; [reflexivity|]; split; [tauto | apply DG; assumption]). }
  assert (FD : forall w : text, Forall (fun c => c <> 58 /\ c <> 10 /\ c <> 13)%N w -> Forall (fun c => is_blank c = false) w -> SpecFields.field 58 w) by (intros w A B; split; [exact A | apply TR, B]).
  assert (WN : forall w, whole w -> numeral w). { intros w [sg [u [-> [SG U]]]]. exists sg, u. repeat split; auto. constructor. exact U. }
  assert (NP : forall sg a b, (sg = [] \/ sg = s2t "-" \/ sg = s2t "+") -> Forall (fun c => is_digit c = true) a -> b <> [] -> Forall (fun c => is_digit c = true) b -> numeral (sg ++ a ++ s2t "." ++ b)).
  { intros sg a b S A B C. exists sg, (a ++ s2t "." ++ b). repeat split; [exact S|]. constructor; [exact A | split; assumption]. }
  assert (NM : forall s, In s ["-1"; "2.5"; "0"; "4"; "1"; "2"; "5"; "3.5"; ".5"; "3"] -> numeral (s2t s)).
  { intros s I. cbn in I. repeat (destruct I as [<-|I];
      [first [solve [apply WN, WH; left; split; [discriminate | repeat constructor]] | solve [apply WN, WH; right; eexists; split; [left; reflexivity|]; split; [discriminate | repeat constructor]]
             | solve [apply (NP [] (s2t "2") (s2t "5")); [auto | repeat constructor | discriminate | repeat constructor]]
             | solve [apply (NP [] (s2t "3") (s2t "5")); [auto | repeat constructor | discriminate | repeat constructor]]
             | apply (NP [] [] (s2t "5")); [auto | repeat constructor | discriminate | repeat constructor]]|]). contradiction. }
  assert (RN : forall s, In s ["-1"; "2.5"; "0"; "4"; "1"; "2"; "5"] -> reads_num (s2t s) (f64v s)).
  { intros s I. split; [apply NM; cbn in *; tauto|]. cbn in I. repeat (destruct I as [<-|I]; [vm_compute; reflexivity|]). contradiction. }
  assert (RP : forall x y, In x ["-1"; "2.5"; "0"; "4"; "1"; "2"; "5"] -> In y ["-1"; "2.5"; "0"; "4"; "1"; "2"; "5"] -> reads_pt (s2t x) (s2t y) (ex_pt x y)).
  { intros x y A B. split; apply RN; assumption. }
  assert (RT : reads_turn (s2t "0") 0 /\ reads_turn (s2t "-360") 0 /\ reads_turn (s2t "450") 90).
  { repeat split; try solve [apply WH; left; split; [discriminate | repeat constructor]].
    - exists 0%Z. split; [reflexivity|]; split; [lia|]; split; [exists 0%Z; lia | lia].
    - apply WH; right; eexists; split; [left; reflexivity|]; split; [discriminate | repeat constructor].
    - exists (-360)%Z. split; [reflexivity|]; split; [lia|]; split; [exists (-1)%Z; lia | lia].
    - exists 450%Z. split; [reflexivity|]; split; [lia|]; split; [exists 1%Z; lia | lia]. }
  assert (DL : forall (d : string) l, In d [":"; " "] -> Forall (fun '(d, _) => delimiter d) (numbers d l)).
  { intros d l I. unfold numbers. apply Forall_map, Forall_forall. intros n _. cbn in I. destruct I as [<-|[<-|[]]]; [left | right]; reflexivity. }
  split; [|split].
  - exists [[((s2t "Airports", s2t "symbol"), mkSItem (s2t "Airports") (s2t "symbol") (mkColour 200 200 200 255) (f32v "3.5") (s2t "SOLID") 0 (HCenter, VCenter))]; [];
      [((s2t "Airports", s2t "symbol"), mkSItem (s2t "Airports") (s2t "symbol") (mkColour 255 0 0 255) (f32v ".5") (s2t "DOT") 1 (HLeft, VCenter))]].
    split; [|split; reflexivity]. constructor; [|constructor; [|constructor; [|constructor]]]; unfold reads_item_line; cbn [il_folder il_name il_colour il_size il_style il_weight il_align].
    + repeat split; try solve [apply WH; left; split; [discriminate | repeat constructor]]; try solve [apply FD; repeat constructor; discriminate]; [apply (NM "3.5"); cbn; tauto|].
      eexists 13158600%Z, _, _, 0%Z, _. split; [reflexivity|]. split; [vm_compute; reflexivity|]. split; [left; reflexivity|]. split; [reflexivity|].
      split; [do 4 right; left; reflexivity|]. left. exists 200%N, 200%N, 200%N. split; [lia|]; split; [lia | reflexivity].
    + split; [apply FD; constructor|]. split.
      { split; [repeat constructor; discriminate|]. split; [intros c v E; injection E as <- _; reflexivity|].
        intros v c E. assert (E' : rev (s2t "two words") = c :: rev v) by (rewrite E, rev_app_distr; reflexivity). vm_compute in E'. injection E' as <- _. reflexivity. }
      split; [|split; [|split; [apply WH; left; split; [discriminate | repeat constructor]|]]].
      * apply WH; right; eexists; split; [left; reflexivity|]; split; [discriminate | repeat constructor].
      * apply (NM "3"). cbn. tauto.
      * eexists (-1)%Z, _, _, 2%Z, _. split; [reflexivity|]. split; [vm_compute; reflexivity|]. split; [do 4 right; left; reflexivity|]. split; [reflexivity|].
        split; [do 8 right; left; reflexivity|]. right. split; [lia | reflexivity].
    + repeat split; try solve [apply WH; left; split; [discriminate | repeat constructor]]; try solve [apply FD; repeat constructor; discriminate]; [apply (NM ".5"); cbn; tauto| |].
      * apply WH; right; eexists; split; [right; reflexivity|]; split; [discriminate | repeat constructor].
      * eexists 255%Z, _, _, 1%Z, _. split; [reflexivity|]. split; [vm_compute; reflexivity|]. split; [do 2 right; left; reflexivity|]. split; [reflexivity|].
        split; [do 1 right; left; reflexivity|]. left. exists 255%N, 0%N, 0%N. split; [lia|]; split; [lia | reflexivity].
  - constructor; [|constructor; [|constructor; [|constructor]]]; unfold reads_symbol_lines; cbn [sl_number sl_rules].
    + split; [apply WH; left; split; [discriminate | repeat constructor]|]. split; [discriminate|]. eexists 0%N, _. split; [reflexivity|]. split; [|left; exists StAirport; split; reflexivity].
      constructor; [|constructor; [|constructor; [|constructor; [|constructor; [|constructor]]]]]; (split; [apply DL; cbn; tauto|]); cbn [dr_word dr_numbers map numbers snd].
      * apply draws_move, RP; cbn; tauto.
      * apply draws_line, RP; cbn; tauto.
      * apply draws_arc; [apply RP; cbn; tauto | apply RN; cbn; tauto | apply RT | apply RT].
      * apply draws_elliptic_fillarc; [apply RP; cbn; tauto | apply RN; cbn; tauto | apply (RN "2.5"); cbn; tauto | apply RT | apply RT | vm_compute; discriminate].
      * apply draws_polygon. apply pts_more; [apply RP; cbn; tauto|]. apply pts_more; [apply RP; cbn; tauto|]. apply pts_one; apply RP; cbn; tauto.
    + split; [apply WH; left; split; [discriminate | repeat constructor]|]. split; [discriminate|]. eexists 24%N, [SPixel (ex_pt "0" "0")]. split; [reflexivity|]. split.
      * constructor; [|constructor]. split; [apply DL; cbn; tauto|]. apply draws_pixel, RP; cbn; tauto.
      * right. split; [intros []; discriminate | reflexivity].
    + split; [apply WH; left; split; [discriminate | repeat constructor]|]. split; [discriminate|]. eexists 3%N, _. split; [reflexivity|]. split; [|left; exists StFix; split; reflexivity].
      constructor; [|constructor; [|constructor; [|constructor]]].
      * split; [apply DL; cbn; tauto|]. apply draws_circle; [apply RP; cbn; tauto | apply RN; cbn; tauto].
      * split; [repeat (apply Forall_cons; [first [left; reflexivity | right; reflexivity]|]); apply Forall_nil|].
        apply draws_ellipse; [apply RP; cbn; tauto | apply RN; cbn; tauto | apply (RN "5"); cbn; tauto].
      * split; [apply DL; cbn; tauto|]. apply (draws_rect (s2t "0") (s2t "0") (ex_pt "0" "0") (s2t "1") (s2t "1") (ex_pt "1" "1")); apply RP; cbn; tauto.
  - assert (LA : forall ls odd, laid symbology_space [] ls (ex_rows odd ls)).
    { induction ls as [|l ls IH]; intros odd; [constructor|]. destruct odd; cbn [ex_rows].
      - apply laid_cons; [repeat constructor | right; reflexivity | | repeat constructor | apply IH]. apply idles_cons; [left; repeat constructor | left; reflexivity | constructor].
      - apply laid_cons; [constructor | left; reflexivity | constructor | constructor | apply IH]. }
    eexists _, _, _. split; [reflexivity|]. split; [apply idles_cons; [left; repeat constructor | left; reflexivity | constructor]|]. split; [repeat constructor | apply LA].
Qed.
