(** Model of the JSON form of maps with two keys (src/lib.rs) and of profiles (src/prf.rs). *)
From Verif Require Import Base Num Paths Prf Json JsonAdaptation.
Local Open Scope string_scope.
Local Open Scope list_scope.

(** lib.rs:147-163 [Serialize for TwoKeyMap]; [it] is the order in which the hash map gives its entries and [write] the
    serialisation of the values.  serde_json's [collect_map] writes one member for each entry. *)
Definition two_key_json {V} (write : V -> json) (it : list ((text * text) * V)) : json :=
  JObj (map (fun e => (fst (fst e) ++ s2t ":" ++ snd (fst e), write (snd e))) it).
(** prf.rs:29-33 [#[derive(Serialize)] Prf] *)
Definition prf_json (it : settings_map) (p : prf) : json :=
  JObj [(s2t "settings", two_key_json JStr it); (s2t "path", enc c_path (prf_path p))].
