(** C86: the airways of a loaded profile are those that are written in its airway.txt.  Specification: SpecAirwayText.v, SpecAirways.v, SpecAdaptation.v. *)
From Verif Require Import Base Float Paths Decode Airways SpecAirways AirwaysProofs AirwaysExpand AirwayTxt SpecAirwayText AirwayText PropAirwayText.
From Verif Require Import Adaptation SpecAdaptation AdaptationProofs AdaptationExample.
From Verif Require Prf.
Local Open Scope string_scope.
Local Open Scope list_scope.

(** The file at the path of the airways is a layout of the lines [ls], which say [segs]. *)
Definition airways_written (v : env) (r : Prf.prf) (ls : list line) (segs : list (list segment)) : Prop :=
  ls <> [] /\ Forall2 reads_line ls segs /\
  exists q b, Prf.airways_path (cwd v) r = Ret q /\ read v q = Some b /\ airway_layout (map line_text ls) (read_to_string b).

Lemma loaded_graph v r a ls segs : from_prf v r = Ret a -> airways_written v r ls segs -> insert_all empty_graph (List.concat segs) = Some (al_airways (ad_locations a)).
Proof.
  intros H [N [F [q [b [P [R L]]]]]]. destruct (airway_text_reads ls segs _ N F L) as [g [E T]].
  destruct (from_prf_ret v r a H) as [FS [t [s M]]]. rewrite (mo_airways _ _ _ _ _ _ M).
  destruct (fr_airways _ _ _ (mo_files _ _ _ _ _ _ M)) as [q' [b' [P' [R' T']]]].
  rewrite P in P'. injection P' as <-. rewrite R in R'. injection R' as <-. rewrite T in T'. injection T' as <-. exact E.
Qed.
(** The steps are the written ones; *)
Theorem C86_steps v r a ls segs : from_prf v r = Ret a -> airways_written v r ls segs -> let h := List.concat segs in
  airway_name_by_id (al_airways (ad_locations a)) = airways h /\
  forall w p q ok m, stored (al_airways (ad_locations a)) w p q ok m <-> In q (neighbours h w p) /\ ok = may_fly h w p q /\ least (levels h w p q) m.
Proof.
  intros H W h. pose proof (loaded_graph v r a ls segs H W) as E. split; [exact (rp_awys _ _ _ _ _ (built_rep _ _ E))|].
  intros w p q ok m. exact (stored_spec _ _ E w p q ok m).
Qed.
Print Assumptions C86_steps.
(** expanding an airway never panics, and what it returns is a way along the written segments to the first point that has the name; *)
Theorem C86_expansion v r a ls segs internal sn sp en w : from_prf v r = Ret a -> airways_written v r ls segs -> let h := List.concat segs in
  expand internal (al_airways (ad_locations a)) sn sp en w <> XPanic /\
  forall x, expand internal (al_airways (ad_locations a)) sn sp en w = XSome x ->
    exists p z steps ok m, start_point h w sn sp = Some p /\ first_on h w en = Some z /\
      path h w None p (map step_of x) /\ map step_of x = steps ++ [(z, ok, m)] /\ (forall y, In y steps -> fst (fst y) <> z) /\
      Forall (fun x => is_position h (fst (fst (step_of x))) (af_pos (fst x)) /\ snd x = internal (af_name (fst x)) (af_pos (fst x))) x.
Proof.
  intros H W h. pose proof (loaded_graph v r a ls segs H W) as E. pose proof (expand_spec h _ E internal sn sp en w) as S.
  split; [intros X; rewrite X in S; exact S|]. intros x X. rewrite X in S. destruct S as [p [z [st [ok [m [A [B [C [D [F [_ G]]]]]]]]]]].
  exists p, z, st, ok, m. tauto.
Qed.
Print Assumptions C86_expansion.
(** and if the lines write the airway as a chain, the points in between are returned, in both directions. *)
Theorem C86_chain v r a ls segs internal w c before p mid q after sp : from_prf v r = Ret a -> airways_written v r ls segs -> is_chain (List.concat segs) w c ->
  quantize sp = snd p -> (forall z, In z c -> fst z = fst q -> z = q) ->
  (c = before ++ p :: mid ++ q :: after ->
     exists x, expand internal (al_airways (ad_locations a)) (fst p) sp (fst q) w = XSome x /\ map (fun x => fst (fst (step_of x))) x = mid ++ [q]) /\
  (c = before ++ q :: mid ++ p :: after ->
     exists x, expand internal (al_airways (ad_locations a)) (fst p) sp (fst q) w = XSome x /\ map (fun x => fst (fst (step_of x))) x = rev mid ++ [q]).
Proof.
  intros H W CH Hsp U. pose proof (loaded_graph v r a ls segs H W) as E. split; intros Ec.
  - destruct (chain_has_id _ w c before p mid q after CH Ec) as [k Hk]. exact (expand_chain _ _ E w k Hk internal c CH before p mid q after sp Ec Hsp U).
  - exact (expand_chain_back _ _ internal w c before p mid q after sp E CH Ec Hsp U).
Qed.
Print Assumptions C86_chain.

(** The profile of AdaptationExample.v, with the airway.txt of PropAirwayText.v *)
Definition airway_env : env := with_files ex_env (fun p => if path_eqb p (pth "/w/airway.txt") then Some written_file else read ex_env p).
Definition akini : apoint := (s2t "AKINI", quantize (at_ "49.1" "-11.4")).
Definition zero : apoint := (s2t "0", quantize (at_ "0.2" "10.4")).
Example C86_nonvacuous : exists a, from_prf airway_env ex_prf = Ret a /\ airways_written airway_env ex_prf written written_segments /\
  is_chain (List.concat written_segments) (s2t "L603") [akini; zero] /\
  exists x, expand (fun _ _ => false) (al_airways (ad_locations a)) (s2t "0") (at_ "0.2" "10.4") (s2t "AKINI") (s2t "L603") = XSome x /\ map step_of x = [(akini, false, Some 24500%N)].
Proof.
  destruct (from_prf airway_env ex_prf) as [a| |] eqn:E; [|vm_compute in E; discriminate..]. exists a. split; [reflexivity|].
  assert (W : airways_written airway_env ex_prf written written_segments).
  { split; [discriminate|]. split; [exact written_reads|]. exists (pth "/w/airway.txt"), written_file. split; [vm_compute; reflexivity|]. split; [vm_compute; reflexivity|].
    assert (D : read_to_string written_file = written_file) by (vm_compute; reflexivity). rewrite D. exact written_laid. }
  split; [exact W|]. split.
  - constructor.
    + apply nodupb_NoDup. vm_compute. reflexivity.
    + intros s I Ea. cbn [List.concat written_segments app] in I. destruct I as [<-|[<-|[]]]; exists [], []; [left | right]; reflexivity.
    + intros l1 p q l2 X. destruct l1 as [|x l1]; [|injection X as _ X; destruct l1; [discriminate X | injection X as _ X; destruct l1; discriminate X]].
      injection X as <- <- <-. eexists. split; [left; reflexivity|]. split; [reflexivity | left; split; reflexivity].
  - pose proof (loaded_graph _ _ _ _ _ E W) as G. set (g := al_airways (ad_locations a)) in *. clearbody g. vm_compute in G. injection G as <-. eexists. split; [vm_compute; reflexivity | vm_compute; reflexivity].
Qed.
