(** Property theorems: drawable .sct items (C37, C38). *)
From Verif Require Import Base Num Float Colours Locations Settings Maps SctData SctItems SpecSctItems SctItemsProofs.

(** C38 *)
Theorem C38_line_group : forall c g,
  (forall x, from_lines c g = Some x <-> drawn_as c g x) /\ (from_lines c g = None <-> not_drawn c g).
Proof.
  intros c g. split; [intros x; apply from_lines_spec | apply (from_lines_spec c g (mkColouredLines (sid_ c) []))].
Qed.
Print Assumptions C38_line_group.

Theorem C38_all_items : forall fmt c s, exists it, from_sct fmt c s = Some it /\ forall k,
  drawn_groups c (groups_of k (sc_sids s)) (mget_vec k (si_sids it)) /\
  drawn_groups c (groups_of k (sc_stars s)) (mget_vec k (si_stars it)) /\
  drawn_groups c (groups_of k (sc_artccs_high s)) (mget_vec k (si_artccs_high it)) /\
  drawn_groups c (groups_of k (sc_artccs s)) (mget_vec k (si_artccs it)) /\
  drawn_groups c (groups_of k (sc_artccs_low s)) (mget_vec k (si_artccs_low it)) /\
  drawn_groups c (groups_of k (sc_geo s)) (mget_vec k (si_geo it)) /\
  mget_vec k (si_regions it) = regions_of k (sc_regions s) /\
  mget_vec k (si_labels it) = labels_of k (sc_labels s).
Proof. exact from_sct_spec. Qed.
Print Assumptions C38_all_items.

(** C37: what the drawn airways are, exactly: one line string with a single point for every distinct start. *)
Theorem C37_airway_points : forall fmt c s, exists it, from_sct fmt c s = Some it /\ forall k,
  mget_vec k (si_high_airways it) = drawn_airway fmt c (airways_of k (sc_high_airways s)) /\
  mget_vec k (si_low_airways it) = drawn_airway fmt c (airways_of k (sc_low_airways s)).
Proof.
  intros fmt c s. unfold from_sct.
  destruct (airways_spec fmt c (sc_high_airways s)) as [h [-> H]].
  destruct (airways_spec fmt c (sc_low_airways s)) as [l [-> L]].
  eexists. split; [reflexivity|]. intros k. cbn [si_high_airways si_low_airways]. split; [apply H | apply L].
Qed.
Print Assumptions C37_airway_points.

(** No segment of any airway is ever drawn. *)
Theorem C37_nothing_joined : forall fmt c s it k m ls p p', from_sct fmt c s = Some it ->
  In m (mget_vec k (si_high_airways it)) \/ In m (mget_vec k (si_low_airways it)) -> In ls m -> ~ joins ls p p'.
Proof.
  intros fmt c s it k m ls p p' E I J [a [b K]]. destruct (C37_airway_points fmt c s) as [it' [E' H]].
  rewrite E in E'. injection E' as <-. specialize (H k). destruct H as [H1 H2]. rewrite H1, H2 in I.
  assert (G : exists l, m = map (fun p => [p]) l).
  { unfold drawn_airway in I. destruct I as [I|I].
    - destruct (airways_of k (sc_high_airways s)); [destruct I|]. destruct I as [<-|[]]. eexists; reflexivity.
    - destruct (airways_of k (sc_low_airways s)); [destruct I|]. destruct I as [<-|[]]. eexists; reflexivity. }
  destruct G as [l ->]. apply in_map_iff in J. destruct J as [q [<- _]].
  destruct K as [K|K]; apply (f_equal (@List.length _)) in K; rewrite app_length in K; cbn in K; lia.
Qed.
Print Assumptions C37_nothing_joined.

(** So the claim that a segment with two resolvable, different ends is drawn is refuted. *)
Theorem C37_segments_joined_refuted : exists c s a p p',
  In a (sc_high_airways s) /\ loc_ c (aw_start a) = Some p /\ loc_ c (aw_end a) = Some p' /\ ~ same_point p p' /\
  forall fmt it, from_sct fmt c s = Some it ->
    ~ exists m ls, In m (mget_vec (aw_des a) (si_high_airways it)) /\ In ls m /\ joins ls p p'.
Proof.
  exists (mkSctCtx (fun _ => None) (fun l => match l with LCoord p => Some p | _ => None end) (mkColour 0 0 0 0)).
  set (a := mkSctAirway (s2t "Y1") (LCoord (f64_of_Z 1, f64_of_Z 2)) (LCoord (f64_of_Z 3, f64_of_Z 4))).
  exists (mkSct (mkSctInfo [] [] [] (f64_of_Z 0, f64_of_Z 0) (f64_of_Z 0) (f64_of_Z 0) (f64_of_Z 0) (f64_of_Z 0))
            [] [] [] [] [] [] [] [] [] [] [] [a] [] [] [] []), a.
  eexists. eexists. split; [left; reflexivity|]. split; [reflexivity|]. split; [reflexivity|]. split.
  - intros [H _]. vm_compute in H. discriminate H.
  - intros fmt it E [m [ls [I [J K]]]]. eapply C37_nothing_joined; [exact E | left; exact I | exact J | exact K].
Qed.
Print Assumptions C37_segments_joined_refuted.

(** A group with a duplicate point, an unresolvable point, an unresolvable line and an unknown colour. *)
Definition ex_sct_ctx : sct_ctx := mkSctCtx
  (fun s => if eqb s (s2t "red") then Some (mkColour 255 0 0 255) else None)
  (fun l => match l with LCoord p => Some p | LFix d => if eqb d (s2t "MNR") then Some (f64_of_Z 1, f64_of_Z 2) else None end)
  (mkColour 1 2 3 4).
Definition ex_P : location := LCoord (f64_of_Z 1, f64_of_Z 2).
Definition ex_Q : location := LCoord (f64_of_Z 3, f64_of_Z 2).
Definition ex_group : line_group := mkLineGroup [[ex_P; LFix (s2t "MNR"); LFix (s2t "??"); ex_Q; ex_P]; [LFix (s2t "??")]] (Some (s2t "green")).
Example C38_nonvacuous :
  from_lines ex_sct_ctx ex_group = Some (mkColouredLines (mkColour 1 2 3 4)
    [[(f64_of_Z 1, f64_of_Z 2); (f64_of_Z 3, f64_of_Z 2); (f64_of_Z 1, f64_of_Z 2)]]) /\
  from_lines ex_sct_ctx (mkLineGroup [[LFix (s2t "??")]] (Some (s2t "red"))) = None /\
  mget_vec (s2t "A") (drawings ex_sct_ctx [mkDrawing (s2t "A") [ex_group; mkLineGroup [] None]; mkDrawing (s2t "B") [ex_group];
     mkDrawing (s2t "A") [mkLineGroup [[ex_P]] (Some (s2t "red"))]]) =
   [mkColouredLines (mkColour 1 2 3 4) [[(f64_of_Z 1, f64_of_Z 2); (f64_of_Z 3, f64_of_Z 2); (f64_of_Z 1, f64_of_Z 2)]];
    mkColouredLines (mkColour 255 0 0 255) [[(f64_of_Z 1, f64_of_Z 2)]]].
Proof. split; [|split]; vm_compute; reflexivity. Qed.
Example C37_nonvacuous :
  drawn_airway (fun _ => []) ex_sct_ctx [mkSctAirway (s2t "Y1") ex_P ex_Q; mkSctAirway (s2t "Y1") (LFix (s2t "??")) ex_Q]
  = [[[(f64_of_Z 1, f64_of_Z 2)]]].
Proof. vm_compute. reflexivity. Qed.
