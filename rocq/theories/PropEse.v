(** C45 C46 C47 C56: .ese files. *)
From Verif Require Import Base Num Float FloatParse Dms Sectors Constraints Peg Grammars SpecPeg Trees SpecPairs PairsProofs Verdict SpecKeyed SpecSct EseParse SpecEse EseProofs.
Local Open Scope string_scope.
Local Open Scope list_scope.

Definition ese_lines (l : list string) : text := flat_map (fun s => s2t s ++ [13; 10]%N) l.
Definition ese_test : text := ese_lines [
  "[POSITIONS]"; "EDDF_ATIS:EDDF ATIS:118.020:EDDF:ATIS:EDDF:ATIS:-:-::"; "ED_GND:EDDM Ground:121.780:MGN:D:EDDM:GND:-:-:2301:2377:N048.11.42.519:E011.43.14.459:N048.20.00.000:E011.00.00.000";
  "EDXX_FIS:Langen:128.950:FIS:X:EDXX:FIS:-:-:::N049.26.35.000:E011.44.58.000:N047.00.00.000:E010.00.00.000"; "EDDF_B:Other:119.000:EDDF:A:EDDF:ATIS:-:-::"; "";
  "[SIDSSTARS]"; "SID:EDDM:26R:BIBAG1B:BIBAG DM060"; "STAR:EDDM::LANDU8A:DETAG"; "";
  "[AIRSPACE]"; "SECTORLINE:1"; "DISPLAY:A:B:C"; "COORD:N048.10.00.000:E011.00.00.000"; "COORD:N049.10.00.000:E012.00.00.000"; "CIRCLE_SECTORLINE:2:EDDM:15.5";
  "SECTOR:APP:0:9500"; "OWNER:MGN:FIS"; "BORDER:1:2:3:1"; "ACTIVE:EDDM:26R"; "DEPAPT:EDDM:EDMO"; "OWNER:ignored"; "SECTORLINE:3"; "COORD:N050.10.00.000:E011.00.00.000"; "SECTOR:APP:100:200"; "BORDER:3:2:1:3"; "SECTOR:CTR:0:100"; "OWNER:MGN";
  "COPX:*:*:RIDAR:*:*:APP:CTR:*:25000:RIDAR"; "FIR_COPX:DM060:26R:BIBAG:*:*:CTR:APP:9000:*:BIBAG"; "MSAW:M:4000"; "COORD:N048.10.00.000:E011.00.00.000"; "DISPLAY_SECTORLINE:1:A:B:C"].
(** a decimal coordinate *)
Definition ese_ruin : text := ese_lines ["[AIRSPACE]"; "SECTORLINE:1"; "COORD:48.5:11.5"].
(** a level below zero *)
Definition ese_ruin2 : text := ese_lines ["[AIRSPACE]"; "SECTOR:APP:-10:9500"].

(** The sectors of a file: for every identifier, the last sector with it, with its levels, owners, airports and runways, and with the border made of the lines its BORDER names, in order and without the unknown names. *)
Theorem C45_sectors t kids e : parsed ese_grammar "ese" t kids -> parse_ese t = Ret e ->
  let sec := section_of "airspace_section" kids in
  forall id, match get id (e_sectors e) with
    | Some s => exists p, last_with (of_rule "sector" (kids_of sec)) id p /\ reads_sector sec p s
    | None => Forall (fun q => ids q <> [id]) (of_rule "sector" (kids_of sec))
    end.
Proof. intros P E. destruct (ese_file_ok t kids P) as [[_ [v [E' R]]]|[_ E']]; rewrite E in E'; [|discriminate]. injection E' as <-. apply R. Qed.
Print Assumptions C45_sectors.
(** The positions of a file: for every identifier, the last position with it. *)
Theorem C46_positions t kids e : parsed ese_grammar "ese" t kids -> parse_ese t = Ret e ->
  let ps := kids_of (section_of "position_section" kids) in
  forall id, match get id (e_positions e) with
    | Some x => exists p, last_keyed names_position ps id p /\ reads_position p x
    | None => Forall (fun q => ~ names_position q id) ps
    end.
Proof. intros P E. destruct (ese_file_ok t kids P) as [[_ [v [E' R]]]|[_ E']]; rewrite E in E'; [|discriminate]. injection E' as <-. apply R. Qed.
Print Assumptions C46_positions.
(** With a squawk range a position has every visibility point of its line. *)
Theorem C46_points t kids e id x : parsed ese_grammar "ese" t kids -> parse_ese t = Ret e -> get id (e_positions e) = Some x -> po_squawk x <> None ->
  exists p, last_keyed names_position (kids_of (section_of "position_section" kids)) id p /\ Forall2 reads_point (of_rule "coordinate" (kids_of p)) (po_points x).
Proof.
  intros P E X Q. pose proof (C46_positions t kids e P E id) as H. cbv zeta in H. rewrite X in H. destruct H as [p [L [_ [_ [S1 S2]]]]]. exists p. split; [exact L|].
  unfold points_read in S2. unfold reads_squawk in S1. destruct (po_squawk x) as [[a b]|]; [|contradiction]. destruct S1 as [q [u [v [S1 _]]]]. rewrite S1 in S2. exact S2.
Qed.
Print Assumptions C46_points.
(** Without one the first point is lost. *)
Theorem C46_lost_point t kids e id x : parsed ese_grammar "ese" t kids -> parse_ese t = Ret e -> get id (e_positions e) = Some x -> po_squawk x = None ->
  exists p, last_keyed names_position (kids_of (section_of "position_section" kids)) id p /\ Forall2 reads_point (tl (of_rule "coordinate" (kids_of p))) (po_points x).
Proof.
  intros P E X Q. pose proof (C46_positions t kids e P E id) as H. cbv zeta in H. rewrite X in H. destruct H as [p [L [_ [_ [S1 S2]]]]]. exists p. split; [exact L|].
  unfold points_read in S2. unfold reads_squawk in S1. rewrite Q in S1. rewrite S1 in S2. exact S2.
Qed.
Print Assumptions C46_lost_point.
Theorem C46_points_refuted : exists t kids e id x p, parsed ese_grammar "ese" t kids /\ parse_ese t = Ret e /\ get id (e_positions e) = Some x /\
  In p (kids_of (section_of "position_section" kids)) /\ names_position p id /\ List.length (of_rule "coordinate" (kids_of p)) = 2 /\ List.length (po_points x) = 1.
Proof.
  destruct (top_cases 1 "ese" ese_grammar "ese" eq_refl ltac:(eexists; reflexivity) ese_test) as [[kids [P E]]|[_ E]]; [|vm_compute in E; discriminate].
  exists ese_test, kids. destruct (ese_file_ok _ _ P) as [[_ [e [X R]]]|[_ X]]; [|vm_compute in X; discriminate]. exists e, (s2t "FIS").
  destruct R as [R _]. specialize (R (s2t "FIS")). clear - P E X R. pose proof X as X'. vm_compute in X'. injection X' as X'.
  pose proof E as E'. vm_compute in E'. injection E' as E'.
  destruct (get (s2t "FIS") (e_positions e)) as [x|] eqn:G; [|exfalso; rewrite <- X' in G; vm_compute in G; discriminate].
  destruct R as [p [[b [a [L [N F]]]] _]]. exists x, p. split; [exact P|]. split; [exact X|]. split; [reflexivity|]. split; [rewrite L; apply in_elt|]. split; [exact N|].
  rewrite <- X' in G. vm_compute in G. injection G as <-. rewrite <- E' in L. clear - L N. vm_compute in L. vm_compute in N.
  destruct b as [|b0 [|b1 [|b2 [|b3 b]]]]; [injection L as <- <-; vm_compute in N; discriminate N | injection L as <- <- <-; vm_compute in N; discriminate N
    | injection L as <- <- <- <-; split; reflexivity | injection L as <- <- <- <- <-; vm_compute in N; discriminate N |].
  exfalso. injection L as _ _ _ _ L. destruct b; discriminate L.
Qed.
Print Assumptions C46_points_refuted.
(** The coordination points and the procedures of a file, each once and in order. *)
Theorem C56_constraints t kids e : parsed ese_grammar "ese" t kids -> parse_ese t = Ret e ->
  Forall2 reads_cop (filter is_cop (kids_of (section_of "airspace_section" kids))) (e_constraints e).
Proof. intros P E. destruct (ese_file_ok t kids P) as [[_ [v [E' R]]]|[_ E']]; rewrite E in E'; [|discriminate]. injection E' as <-. apply R. Qed.
Print Assumptions C56_constraints.
Theorem C56_procedures t kids e : parsed ese_grammar "ese" t kids -> parse_ese t = Ret e ->
  Forall2 reads_sid_star (kids_of (section_of "sidsstars_section" kids)) (e_procs e).
Proof. intros P E. destruct (ese_file_ok t kids P) as [[_ [v [E' R]]]|[_ E']]; rewrite E in E'; [|discriminate]. injection E' as <-. apply R. Qed.
Print Assumptions C56_procedures.
(** Reading a file succeeds exactly if its numbers fit into their types and the coordinates that count are not decimal; otherwise it panics. Other texts are errors. *)
Theorem C47_ese t kids : parsed ese_grammar "ese" t kids -> (ese_fits kids -> exists e, parse_ese t = Ret e) /\ (~ ese_fits kids -> parse_ese t = Panic).
Proof. intros P. destruct (ese_file_ok t kids P) as [[F [v [E _]]]|[F E]]; split; intros H; try contradiction; eauto. Qed.
Print Assumptions C47_ese.
Theorem C47_ese_rejects t : unparsed ese_grammar "ese" t -> parse_ese t = Err.
Proof. apply ese_err. Qed.
Print Assumptions C47_ese_rejects.
Theorem C47_ese_refuted : parse_ese ese_ruin = Panic /\ parse_ese ese_ruin2 = Panic.
Proof. split; vm_compute; reflexivity. Qed.
Print Assumptions C47_ese_refuted.

Ltac ese_example P E X t :=
  let R := fresh in
  destruct (top_cases 1 "ese" ese_grammar "ese" eq_refl ltac:(eexists; reflexivity) t) as [[kids [P E]]|[_ E]]; [|vm_compute in E; discriminate];
  exists kids; destruct (ese_file_ok _ _ P) as [[_ [e [X R]]]|[_ X]]; [|vm_compute in X; discriminate]; clear R; exists e; (split; [exact P|]); (split; [exact X|]);
  clear P; vm_compute in X; injection X as <-; vm_compute in E; injection E as <-.
Example C45_nonvacuous : exists kids e, parsed ese_grammar "ese" ese_test kids /\ parse_ese ese_test = Ret e /\
  List.length (of_rule "sector" (kids_of (section_of "airspace_section" kids))) = 3 /\
  map fst (e_sectors e) = [s2t "APP"; s2t "CTR"] /\ map (fun s => (es_bottom (snd s), map (@List.length _) (es_border (snd s)), es_owner (snd s))) (e_sectors e) = [(100%N, [1; 2; 1], []); (0%N, [], [s2t "MGN"])].
Proof. ese_example P E X ese_test. split; [reflexivity|]. split; reflexivity. Qed.
Example C46_nonvacuous : exists kids e, parsed ese_grammar "ese" ese_test kids /\ parse_ese ese_test = Ret e /\
  map (fun x => (fst x, po_name (snd x), po_squawk (snd x), List.length (po_points (snd x)))) (e_positions e) =
  [(s2t "EDDF", s2t "EDDF_B", None, 0); (s2t "MGN", s2t "ED_GND", Some (2301, 2377)%N, 2); (s2t "FIS", s2t "EDXX_FIS", None, 1)].
Proof. ese_example P E X ese_test. reflexivity. Qed.
Example C56_nonvacuous : exists kids e, parsed ese_grammar "ese" ese_test kids /\ parse_ese ese_test = Ret e /\
  map c_fix (e_constraints e) = [Some (s2t "RIDAR"); Some (s2t "BIBAG")] /\ e_procs e =
  [Sid (mkProc (s2t "BIBAG1B") (s2t "EDDM") (Some (s2t "26R")) [s2t "BIBAG"; s2t "DM060"]); Star (mkProc (s2t "LANDU8A") (s2t "EDDM") None [s2t "DETAG"])].
Proof. ese_example P E X ese_test. split; reflexivity. Qed.
Example C47_ese_nonvacuous : exists kids, parsed ese_grammar "ese" ese_ruin2 kids /\ ~ ese_fits kids.
Proof.
  destruct (top_cases 1 "ese" ese_grammar "ese" eq_refl ltac:(eexists; reflexivity) ese_ruin2) as [[kids [P E]]|[_ E]]; [|vm_compute in E; discriminate].
  exists kids. split; [exact P|]. destruct (ese_file_ok _ _ P) as [[_ [s [X _]]]|[F _]]; [vm_compute in X; discriminate | exact F].
Qed.
