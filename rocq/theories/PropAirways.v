(** Property theorems: the airway graph (C11-C14).  [h] is the history of segments inserted
    into an initially empty graph, [g] the resulting graph. *)
From Verif Require Import Base Float Airways SpecAirways AirwaysProofs AirwaysExpand.

(** A small network used to show that the hypotheses are met: airway A joins P-Q-R, airway B
    joins Q-S, and the segment P-Q is given twice. *)
Definition ex_pt (x y : Z) : point := (f64_of_Z x, f64_of_Z y).
Definition ex_seg (a n : string) (p : point) (n' : string) (p' : point) (v : bool) (l : option N) :=
  mkSeg (s2t a) (s2t n) p (s2t n') p' v l ABoth.
Definition ex_history : list segment :=
  [ex_seg "A" "Q" (ex_pt 1 0) "P" (ex_pt 0 0) true (Some 120%N);
   ex_seg "A" "Q" (ex_pt 1 0) "R" (ex_pt 2 0) false None;
   ex_seg "B" "Q" (ex_pt 1 0) "S" (ex_pt 1 1) true (Some 50%N);
   ex_seg "A" "P" (ex_pt 0 0) "Q" (ex_pt 1 0) false (Some 100%N)].
Definition ex_graph : graph :=
  match insert_all empty_graph ex_history with Some g => g | None => empty_graph end.
Definition ex_p (n : string) (x y : Z) : apoint := (s2t n, quantize (ex_pt x y)).

(** C11 *)
Theorem C11_insertion_never_panics : forall h, exists g, insert_all empty_graph h = Some g.
Proof. intros h. destruct (insert_all_rep h) as [g [E _]]. exists g; exact E. Qed.
Print Assumptions C11_insertion_never_panics.

Theorem C11_graph_well_formed : forall h g,
  insert_all empty_graph h = Some g -> well_formed g.
Proof. exact graph_well_formed. Qed.
Print Assumptions C11_graph_well_formed.

(** The ids enumerate exactly the points and airways of the history, and every point keeps
    the coordinate of its first appearance. *)
Theorem C11_points_of_history : forall h g, insert_all empty_graph h = Some g ->
  (forall i, point_of_id g i = nth_error (points h) i) /\
  (forall i f p, nth_error (fixes g) i = Some f -> point_of_id g i = Some p -> is_position h p (g_pos f)) /\
  airway_name_by_id g = airways h.
Proof.
  intros h g E. split; [exact (point_id h g E)|]. split.
  - intros i f p Hf Hp. rewrite (point_id h g E) in Hp. exact (positions h g E i f p Hf Hp).
  - exact (rp_awys _ _ _ _ _ (built_rep h g E)).
Qed.
Print Assumptions C11_points_of_history.

Example C11_nonvacuous : insert_all empty_graph ex_history = Some ex_graph /\
  points ex_history = [ex_p "Q" 1 0; ex_p "P" 0 0; ex_p "R" 2 0; ex_p "S" 1 1] /\
  airways ex_history = [s2t "A"; s2t "B"].
Proof. split; [|split]; vm_compute; reflexivity. Qed.

(** C12 *)
Theorem C12_edge_attributes : forall h g a p q v m, insert_all empty_graph h = Some g ->
  (stored g a p q v m <->
   In q (neighbours h a p) /\ v = may_fly h a p q /\ least (levels h a p q) m).
Proof. intros h g a p q v m E. exact (stored_spec h g E a p q v m). Qed.
Print Assumptions C12_edge_attributes.

Theorem C12_other_insertions_irrelevant : forall h s g g' a p q v m,
  insert_all empty_graph h = Some g -> insert_seg g s = Some g' -> joins a p q s = false ->
  stored g a p q v m <-> stored g' a p q v m.
Proof. exact stored_frame. Qed.
Print Assumptions C12_other_insertions_irrelevant.

Example C12_nonvacuous :
  stored ex_graph (s2t "A") (ex_p "Q" 1 0) (ex_p "P" 0 0) true (Some 100%N) /\
  stored ex_graph (s2t "A") (ex_p "P" 0 0) (ex_p "Q" 1 0) false (Some 100%N) /\
  joins (s2t "A") (ex_p "Q" 1 0) (ex_p "P" 0 0)
        (ex_seg "B" "Q" (ex_pt 1 0) "P" (ex_pt 0 0) true (Some 1%N)) = false.
Proof.
  assert (E : insert_all empty_graph ex_history = Some ex_graph) by (vm_compute; reflexivity).
  split; [|split]; [apply (stored_spec _ _ E) | apply (stored_spec _ _ E) | vm_compute; reflexivity].
  - split; [left; vm_compute; reflexivity|]. split; [vm_compute; reflexivity|].
    replace (levels _ _ _ _) with [120%N; 100%N] by (vm_compute; reflexivity).
    split; [right; left; reflexivity | intros y [<-|[<-|[]]]; lia].
  - split; [left; vm_compute; reflexivity|]. split; [vm_compute; reflexivity|].
    replace (levels _ _ _ _) with [120%N; 100%N] by (vm_compute; reflexivity).
    split; [right; left; reflexivity | intros y [<-|[<-|[]]]; lia].
Qed.

(** C13 *)
Theorem C13_expansion_never_panics : forall h g internal sn sp en a,
  insert_all empty_graph h = Some g -> expand internal g sn sp en a <> XPanic.
Proof.
  intros h g internal sn sp en a E X. pose proof (expand_spec h g E internal sn sp en a) as S.
  rewrite X in S. exact S.
Qed.
Print Assumptions C13_expansion_never_panics.

(** The result is a path in the history's network from the start point, ending at the first
    point with the end name on the airway, which it does not pass before; it has at most as
    many steps as there are points, reports first-appearance coordinates and the outcome of
    the lookup [internal] for each of its points. *)
Theorem C13_expansion_is_path : forall h g internal sn sp en a r,
  insert_all empty_graph h = Some g -> expand internal g sn sp en a = XSome r ->
  exists p z steps v m,
    start_point h a sn sp = Some p /\ first_on h a en = Some z /\
    path h a None p (map step_of r) /\ map step_of r = steps ++ [(z, v, m)] /\
    (forall y, In y steps -> fst (fst y) <> z) /\
    List.length r <= List.length (points h) /\
    Forall (fun x => is_position h (fst (fst (step_of x))) (af_pos (fst x)) /\
                     snd x = internal (af_name (fst x)) (af_pos (fst x))) r.
Proof.
  intros h g internal sn sp en a r E X. pose proof (expand_spec h g E internal sn sp en a) as S.
  rewrite X in S. exact S.
Qed.
Print Assumptions C13_expansion_is_path.

Example C13_nonvacuous :
  expand (fun n _ => eqb n (s2t "R")) ex_graph (s2t "P") (ex_pt 0 0) (s2t "R") (s2t "A")
  = XSome [(mkAfix (s2t "Q") (ex_pt 1 0) false (Some 100%N), false);
           (mkAfix (s2t "R") (ex_pt 2 0) false None, true)].
Proof. vm_compute; reflexivity. Qed.

(** C14: forwards and backwards along a chain.  The end is identified by its name, so the name
    must not belong to another point of the chain. *)
Theorem C14_chain_forward : forall h g internal a c before p mid q after sp,
  insert_all empty_graph h = Some g -> is_chain h a c ->
  c = before ++ p :: mid ++ q :: after -> quantize sp = snd p ->
  (forall z, In z c -> fst z = fst q -> z = q) ->
  exists r, expand internal g (fst p) sp (fst q) a = XSome r /\
    map (fun x => fst (fst (step_of x))) r = mid ++ [q].
Proof.
  intros h g internal a c before p mid q after sp E CH Ec Hsp U.
  destruct (chain_has_id h a c before p mid q after CH Ec) as [k Hk].
  exact (expand_chain h g E a k Hk internal c CH before p mid q after sp Ec Hsp U).
Qed.
Print Assumptions C14_chain_forward.

Theorem C14_chain_backward : forall h g internal a c before p mid q after sp,
  insert_all empty_graph h = Some g -> is_chain h a c ->
  c = before ++ q :: mid ++ p :: after -> quantize sp = snd p ->
  (forall z, In z c -> fst z = fst q -> z = q) ->
  exists r, expand internal g (fst p) sp (fst q) a = XSome r /\
    map (fun x => fst (fst (step_of x))) r = rev mid ++ [q].
Proof. exact expand_chain_back. Qed.
Print Assumptions C14_chain_backward.

Example C14_nonvacuous :
  let c := [ex_p "P" 0 0; ex_p "Q" 1 0; ex_p "R" 2 0] in
  is_chain ex_history (s2t "A") c /\ (forall z, In z c -> fst z = s2t "R" -> z = ex_p "R" 2 0).
Proof.
  cbv zeta. split.
  - constructor.
    + apply nodupb_NoDup. vm_compute. reflexivity.
    + intros s I Ea. repeat (destruct I as [<-|I]); [| | discriminate Ea | | destruct I].
      * exists [], [ex_p "R" 2 0]. right; reflexivity.
      * exists [ex_p "P" 0 0], []. left; reflexivity.
      * exists [], [ex_p "R" 2 0]. left; reflexivity.
    + intros l1 p q l2 E. destruct l1 as [|x l1].
      * injection E as <- <- <-. eexists. split; [left; reflexivity|]. split; [reflexivity | right; split; reflexivity].
      * injection E as <- E. destruct l1 as [|y l1].
        -- injection E as <- <- <-. eexists. split; [right; left; reflexivity|].
           split; [reflexivity | left; split; reflexivity].
        -- injection E as <- E. destruct l1 as [|w l1]; [discriminate|]. injection E as <- E.
           destruct l1; discriminate.
  - intros z [<-|[<-|[<-|[]]]] E; [discriminate E | discriminate E | reflexivity].
Qed.
