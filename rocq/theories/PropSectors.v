(** Property theorems: sector polygons (C15, C16) and sectors (C17). *)
From Verif Require Import Base Float Sectors SpecSectors SectorsProofs SectorsFromEse.

(** C15: [order] is any iteration order of the set of border points. *)
Theorem C15_polygon_uses_every_segment_once : forall s order ring,
  set_order order -> polygon_from_ese s order = RRing ring ->
  closed ring /\ uses_each_once ring (border_segments s).
Proof.
  intros s order ring SO E. pose proof (polygon_spec s order SO) as S.
  rewrite E in S. tauto.
Qed.
Print Assumptions C15_polygon_uses_every_segment_once.

(** C16 *)
Theorem C16_polygon_exists_iff_closed_connected : forall s order,
  set_order order ->
  ((exists ring, polygon_from_ese s order = RRing ring) <->
   closed_connected_border (border_segments s)).
Proof.
  intros s order SO. pose proof (polygon_spec s order SO) as S.
  destruct (polygon_from_ese s order) as [|r|].
  - split; [intros [r E]; discriminate | tauto].
  - split; [tauto | intros _; exists r; reflexivity].
  - destruct S.
Qed.
Print Assumptions C16_polygon_exists_iff_closed_connected.

Theorem C16_polygon_search_terminates : forall s order,
  set_order order -> polygon_from_ese s order <> RHang.
Proof.
  intros s order SO E. pose proof (polygon_spec s order SO) as S.
  rewrite E in S. exact S.
Qed.
Print Assumptions C16_polygon_search_terminates.

Theorem C16_independent_of_hash_order : forall s order order',
  set_order order -> set_order order' ->
  ((exists ring, polygon_from_ese s order = RRing ring) <->
   (exists ring, polygon_from_ese s order' = RRing ring)).
Proof.
  intros s o o' S S'. rewrite !C16_polygon_exists_iff_closed_connected by assumption. reflexivity.
Qed.
Print Assumptions C16_independent_of_hash_order.

(** A border made of two lines that meet in a figure of eight. *)
Definition ex_border : list sector_line :=
  let p x y := (f64_of_Z x, f64_of_Z y) in
  [[p 0 0; p 1 0; p 1 1; p 0 0]; [p 0 0; p (-1) 0; p (-1) (-1)]; [p (-1) (-1); p 0 0]]%Z.
Definition ex_sector (id : string) (owner : string) (b : list sector_line) : ese_sector :=
  mkEseSector (s2t id) 0 24500 b [s2t owner] [s2t "EDDM"] [] [].

Example C15_C16_nonvacuous :
  (exists ring, polygon_from_ese (ex_sector "S" "O" ex_border) (fun l => l) = RRing ring /\ List.length ring = 7)
  /\ (exists ring, polygon_from_ese (ex_sector "S" "O" ex_border) (@rev _) = RRing ring)
  /\ polygon_from_ese (ex_sector "S" "O" (tl ex_border)) (fun l => l) = 
     RRing [(0, 0); (-1000000, 0); (-1000000, -1000000); (0, 0)]%Z
  /\ polygon_from_ese (ex_sector "S" "O" []) (fun l => l) = RNone.
Proof.
  split; [|split; [|split]].
  - eexists. split; [vm_compute; reflexivity | reflexivity].
  - eexists. vm_compute. reflexivity.
  - vm_compute. reflexivity.
  - vm_compute. reflexivity.
Qed.
Example C15_set_orders : set_order (fun l => l) /\ set_order (@rev _).
Proof. split; intros l; [reflexivity | symmetry; apply Permutation_rev]. Qed.

(** C17: [entries] is the sector map in its iteration order, [order] and [gorder] are the
    iteration orders of the point sets and of the group map, [ccw] is the winding
    normalisation of the geometry library. *)
Theorem C17_sectors_from_ese : forall entries order ccw gorder,
  NoDup (keys entries) -> (forall id, set_order (order id)) -> (forall l, Permutation (gorder l) l) ->
  exists vols secs, sectors_from_ese entries order ccw gorder = Some (vols, secs) /\
    sectors_ok entries ccw vols secs.
Proof. intros entries order ccw gorder ND SO GO. exact (from_ese_spec order ccw SO entries gorder ND GO). Qed.
Print Assumptions C17_sectors_from_ese.

(** Two valid definitions end up in the same sector iff owners and runway filters agree. *)
Theorem C17_same_sector_iff : forall entries order ccw gorder vols secs id s id' s',
  NoDup (keys entries) -> (forall i, set_order (order i)) -> (forall l, Permutation (gorder l) l) ->
  sectors_from_ese entries order ccw gorder = Some (vols, secs) ->
  valid_entry entries id s -> valid_entry entries id' s' ->
  ((exists k sc, In (k, sc) secs /\ In id (sc_volumes sc) /\ In id' (sc_volumes sc)) <->
   es_owner s = es_owner s' /\ es_runways s = es_runways s').
Proof. exact same_sector_iff. Qed.
Print Assumptions C17_same_sector_iff.

Theorem C17_find_id_by_volume : forall entries order ccw gorder vols secs secs' id,
  NoDup (keys entries) -> (forall i, set_order (order i)) -> (forall l, Permutation (gorder l) l) ->
  sectors_from_ese entries order ccw gorder = Some (vols, secs) -> Permutation secs' secs ->
  match find_id_by_volume secs' id with
  | Some k => exists sc, In (k, sc) secs /\ In id (sc_volumes sc)
  | None => forall s, ~ valid_entry entries id s
  end.
Proof.
  intros entries order ccw gorder vols secs secs' id ND SO GO E P.
  destruct (from_ese_spec order ccw SO entries gorder ND GO) as [v [s [E' OK]]].
  rewrite E in E'. injection E' as <- <-. exact (find_id_spec _ _ _ _ _ id OK P).
Qed.
Print Assumptions C17_find_id_by_volume.

Example C17_nonvacuous :
  let entries := [(s2t "A", ex_sector "A" "O" ex_border); (s2t "B", ex_sector "B" "P" ex_border);
                  (s2t "C", ex_sector "C" "O" (tl ex_border)); (s2t "D", ex_sector "D" "O" [])] in
  NoDup (keys entries) /\
  exists vols secs, sectors_from_ese entries (fun _ l => l) (fun l => l) (fun l => l) = Some (vols, secs) /\
    map (fun x => (fst x, sc_volumes (snd x))) secs = [(s2t "A", [s2t "A"; s2t "C"]); (s2t "B", [s2t "B"])].
Proof.
  cbv zeta. split; [apply nodupb_NoDup; vm_compute; reflexivity|].
  eexists _, _. split; [vm_compute; reflexivity | vm_compute; reflexivity].
Qed.
