(** Proofs for the positive part of C71: the colours of an adaptation, and what is drawn with them. *)
From Coq Require Import ZifyBool ZifyN ZifyNat.
From Verif Require Import Base Num Float Colours Settings Trees SpecJson SpecLoaded Adaptation AdaptationProofs AdaptationLoads LoadedGraph LoadedSct.
From Verif Require Locations SctData SctItems Maps SymbologyParse TopskyParse SymbolParse.
Local Open Scope string_scope.
Local Open Scope list_scope.

Definition rgb_okb (o : rgb_opt) : bool := match o with Some (r, g, b) => (r <? 256)%N && (g <? 256)%N && (b <? 256)%N | None => true end.
Lemma defaults_ok : forallb (fun e => rgb_okb (fst (snd e)) && rgb_okb (snd (snd e))) default_colours = true.
Proof. vm_compute. reflexivity. Qed.
Lemma default_ok b n c : from_topsky_default b n = Some c -> colour_ok c.
Proof.
  unfold from_topsky_default. destruct (get n _) as [[p q]|] eqn:G; [|discriminate]. apply get_In in G. apply in_map_iff in G. destruct G as [[k x] [E I]].
  injection E as <- Ex. cbn [fst snd] in Ex. subst x. pose proof (proj1 (forallb_forall _ _) defaults_ok _ I) as B. cbn [fst snd] in B. apply andb_prop in B. destruct B as [B1 B2].
  assert (B : rgb_okb (if b then q else p) = true) by (destruct b; assumption). destruct (if b then q else p) as [[[r g] b']|]; [|discriminate].
  intros [=<-]. cbn in B. apply from_rgb_ok; lia.
Qed.
Lemma symbology_ok its k d : each colour_ok its -> colour_ok d -> colour_ok (from_symbology its k d).
Proof. intros T D. unfold from_symbology. destruct (get k its) eqn:G; [|exact D]. apply get_In in G. exact (T _ _ G). Qed.
Lemma topsky_or_ok tc b k k' d : entries colour_ok tc -> colour_ok d -> colour_ok (topsky_or tc b k k' d).
Proof.
  intros T D. unfold topsky_or. destruct (get k tc) eqn:G; [exact (get_entries _ _ _ _ T G)|]. destruct (from_topsky_default b k') eqn:E; [exact (default_ok _ _ _ E) | exact D].
Qed.
Lemma rgb_const r g b : (r <? 256)%N && (g <? 256)%N && (b <? 256)%N = true -> colour_ok (from_rgb r g b).
Proof. intros. apply from_rgb_ok; lia. Qed.
Lemma colours_loaded its sct t b : each colour_ok its -> each colour_ok sct -> (forall l, t = Some l -> each colour_ok l) -> colours_ok (colours_from_euroscope its sct t b).
Proof.
  intros TI TS TT. unfold colours_ok, colours_from_euroscope. cbn [col_track col_sector col_map col_ui col_other].
  assert (TC : entries colour_ok (match t with Some l => of_list l | None => [] end)).
  { destruct t as [l|]; [|apply nil_entries]. apply of_list_entries, Forall_forall. intros [k c] I. exact (TT l eq_refl k c I). }
  generalize dependent (match t with Some l => of_list l | None => [] end). intros tc TC.
  split; [reflexivity|]. split; [reflexivity|]. split; [reflexivity|]. split; [reflexivity|]. split.
  - rewrite !Forall_app. unfold track_colours, sector_colours, map_colours, ui_colours.
    repeat split; repeat (constructor; [cbn [snd]; first [apply symbology_ok; [exact TI|] | apply topsky_or_ok; [exact TC|]]; apply rgb_const; reflexivity|]); constructor.
  - apply of_list_entries, Forall_app. split; apply Forall_forall; intros [k c] I; [exact (TS k c I) | exact (proj2 TC k c I)].
Qed.
Lemma colours_get_ok c n b x : colours_ok c -> colours_get c n b = Some x -> colour_ok x.
Proof.
  intros [_ [_ [_ [_ [_ O]]]]] H. unfold colours_get in H. destruct (get n (col_other c)) eqn:G; [injection H as <-; exact (get_entries _ _ _ _ O G) | exact (default_ok _ _ _ H)].
Qed.
Lemma sid_ok c : colours_ok c -> colour_ok (sid_colour c).
Proof.
  intros [_ [_ [_ [_ [F _]]]]]. unfold sid_colour. destruct (get "sid" (col_map c)) eqn:G; [|apply rgb_const; reflexivity]. apply get_In in G.
  rewrite Forall_forall in F. apply (F ("sid", c0)). rewrite !in_app_iff. auto.
Qed.

(** ** The items of the .sct file *)
Lemma drawings_ok c l : (forall n x, SctItems.lookup_ c n = Some x -> colour_ok x) -> colour_ok (SctItems.sid_ c) ->
  entries (Forall (fun x => colour_ok (SctItems.cl_colour x))) (SctItems.drawings c l).
Proof.
  intros LO SO. unfold SctItems.drawings. apply mpush_all_entries; [|apply nil_entries]. apply Forall_forall. intros [k x] I. apply in_flat_map in I. destruct I as [d [_ I]].
  cbn [snd]. induction (SctData.dr_groups d) as [|g gs IH]; cbn [Maps.filter_map] in I; [destruct I|].
  unfold SctItems.from_lines at 1 in I. destruct (forallb Maps.is_nil _); cbn [option_map] in I; [exact (IH I)|].
  destruct I as [I|I]; [|exact (IH I)]. injection I as _ <-. cbn [SctItems.cl_colour]. destruct (SctData.lg_colour g) as [n|]; cbn [and_then unwrap_or]; [|exact SO].
  destruct (SctItems.lookup_ c n) eqn:E; [exact (LO _ _ E) | exact SO].
Qed.
Lemma airways_unique fmt c l x : SctItems.airways fmt c l = Some x -> unique x.
Proof. unfold SctItems.airways. destruct (SctItems.all_some _ _); [|discriminate]. intros [=<-]. apply mpush_unique. Qed.
Lemma items_loaded fmt c s x : (forall n x, SctItems.lookup_ c n = Some x -> colour_ok x) -> colour_ok (SctItems.sid_ c) -> SctItems.from_sct fmt c s = Some x ->
  items_floats x -> sct_items_ok x.
Proof.
  intros LO SO H. unfold SctItems.from_sct in H. destruct (SctItems.airways fmt c (SctData.sc_high_airways s)) as [hi|] eqn:EH; [|discriminate].
  destruct (SctItems.airways fmt c (SctData.sc_low_airways s)) as [lo|] eqn:EL; [|discriminate]. injection H as <-. apply airways_unique in EH, EL.
  assert (D : forall l, each_of (fun c => lines_ok (SctItems.cl_lines c)) (SctItems.drawings c l) -> multi coloured_ok (SctItems.drawings c l)).
  { intros l. apply (entries_each _ _ _ _ (fun a A B => Forall_and _ _ coloured_ok a (fun x p q => conj p q) A B) (drawings_ok c l LO SO)). }
  unfold items_floats, sct_items_ok. cbn. intros [H1 [H2 [H3 [H4 [H5 [H6 [H7 [H8 [H9 H10]]]]]]]]].
  split; [exact (D _ H1)|]. split; [exact (D _ H2)|]. split; [exact (unique_each _ _ EH H3)|]. split; [exact (unique_each _ _ EL H4)|]. split; [exact (D _ H5)|].
  split; [exact (D _ H6)|]. split; [exact (D _ H7)|]. split; [exact (D _ H8)|].
  split; [exact (unique_each _ _ (mpush_unique _) H9) | exact (unique_each _ _ (mpush_unique _) H10)].
Qed.
