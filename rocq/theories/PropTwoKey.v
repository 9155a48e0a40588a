(** Property theorems: the JSON form of maps with two keys (C73). *)
From Verif Require Import Base Num Paths Peg Grammars Trees Json TwoKey SpecTwoKey Prf SpecPrf TwoKeyProofs Asr SymbologyParse PropSymbology.
From Verif Require Adaptation.
Local Open Scope string_scope.
Local Open Scope list_scope.

(** A profile that was read is written, in whatever order its hash map gives the settings, as an object that shows every
    setting under its category and key, each name once, and nothing else. *)
Theorem C73_prf canon t p it : prf_parse canon t = Ret p -> Permutation it (settings p) ->
  exists j path, prf_json it p = JObj [(s2t "settings", j); (s2t "path", JStr path)] /\ path = Adaptation.display (prf_path p) /\ shows JStr (settings p) j.
Proof.
  intros E P. exists (two_key_json JStr it), (Adaptation.display (prf_path p)). split; [reflexivity|]. split; [reflexivity|].
  unfold prf_parse in E. destruct (parse_settings t) as [m| |] eqn:S; [|discriminate E..]. cbn [obind] in E. destruct canon as [q|]; [|discriminate E].
  injection E as <-. cbn [settings] in *. destruct (prf_shown t m S) as [ND NC]. exact (shown JStr m it ND NC P).
Qed.
Print Assumptions C73_prf.
(** So are the plugin settings of an .asr file and the items of a symbology file, whose values are written in any way. *)
Theorem C73_asr t a it : asr_parse t = Ret a -> Permutation it (asr_plugin_settings a) -> shows JStr (asr_plugin_settings a) (two_key_json JStr it).
Proof. intros E P. destruct (asr_shown t a E) as [ND NC]. exact (shown JStr _ it ND NC P). Qed.
Print Assumptions C73_asr.
Theorem C73_symbology t s it write : parse_symbology t = Ret s -> Permutation it (sg_items s) -> shows write (sg_items s) (two_key_json write it).
Proof. intros E P. destruct (symbology_shown t s E) as [ND NC]. exact (shown write _ it ND NC P). Qed.
Print Assumptions C73_symbology.
(** The object determines the map. *)
Theorem C73_determined (V : Type) (write : V -> json) m m' j : (forall v v', write v = write v' -> v = v') -> shows write m j -> shows write m' j -> forall k, get k m = get k m'.
Proof. apply shows_determines. Qed.
Print Assumptions C73_determined.
(** But not every map with two keys is: if first keys contain colons, two entries can get the same name. *)
Theorem C73_colon_refuted : exists m : list ((text * text) * text), NoDup (keys m) /\ exists l, two_key_json JStr m = JObj l /\ ~ NoDup (map fst l).
Proof.
  exists [((s2t "A:B", s2t "C"), s2t "1"); ((s2t "A", s2t "B:C"), s2t "2")]. split; [apply nodupb_NoDup; reflexivity|].
  eexists. split; [reflexivity|]. intros N. inversion N as [|? ? X _]. apply X. left. reflexivity.
Qed.
Print Assumptions C73_colon_refuted.

Definition tk_prf : text := s2t "Settings	sector	\A:B.sct" ++ [10%N] ++ s2t "RecentFiles	Recent1	x" ++ [10%N] ++ s2t "Settings	sector	\C.sct".
Definition tk_asr : text := s2t "DisplayTypeName:Standard ES radar screen" ++ [10%N] ++ s2t "PLUGIN:TopSky plugin:HideMapData:A:B" ++ [10%N] ++ s2t "PLUGIN::HideMapData:" ++ [10%N].
Example C73_nonvacuous :
  (exists p, prf_parse (Some (to_path (s2t "/a/b.prf"))) tk_prf = Ret p /\ prf_json (settings p) p =
     JObj [(s2t "settings", JObj [(s2t "Settings:sector", JStr (s2t "\C.sct")); (s2t "RecentFiles:Recent1", JStr (s2t "x"))]); (s2t "path", JStr (s2t "/a/b.prf"))]) /\
  (exists a, asr_parse tk_asr = Ret a /\ two_key_json JStr (asr_plugin_settings a) =
     JObj [(s2t "TopSky plugin:HideMapData", JStr (s2t "A:B")); (s2t ":HideMapData", JStr [])]) /\
  exists s, parse_symbology sg_test = Ret s /\ two_key_json (fun x => JNum (fmt_int (si_weight x))) (sg_items s) =
     JObj [(s2t "Sector:msaw", JNum (s2t "-1")); (s2t "Sector:inactive sector background", JNum (s2t "0"))].
Proof. split; [|split]; eexists; (split; [vm_compute; reflexivity | vm_compute; reflexivity]). Qed.
