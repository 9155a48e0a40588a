(** Property theorems: squawks.json (C75). *)
From Verif Require Import Base Colours SpecColours Json SpecJson Squawks SpecSquawks SquawksProofs.
Local Open Scope string_scope.
Local Open Scope list_scope.

(** A document is read, and as [s], exactly if it says [s]; all other documents are errors. *)
Theorem C75_read parse content s : parse_squawks_json parse content = Ret s <-> exists j, parse content = Some j /\ says_squawks s j.
Proof.
  unfold parse_squawks_json. pose proof (reads_squawks "NonDiscreteColor" "NonDiscreteMessage" "NonDiscrete" "Squawks") as R. split.
  - destruct (parse content) as [j|]; [|discriminate]. destruct (squawks_of_value j) as [s'|] eqn:E; [|discriminate]. intros X. injection X as <-.
    exists j. split; [reflexivity|]. apply R, E.
  - intros [j [-> H]]. apply R in H. unfold squawks_of_value. rewrite H. reflexivity.
Qed.
Print Assumptions C75_read.
Theorem C75_error parse content : (forall s j, parse content = Some j -> ~ says_squawks s j) -> parse_squawks_json parse content = Err.
Proof.
  intros H. destruct (parse_squawks_json parse content) as [s| |] eqn:E; [|reflexivity|].
  - apply C75_read in E. destruct E as [j [P S]]. contradiction (H s j P S).
  - unfold parse_squawks_json in E. destruct (parse content) as [j|]; [destruct (squawks_of_value j)|]; discriminate E.
Qed.
Print Assumptions C75_error.
(** But what was read can never be read again after it has been written: it is written with other names. *)
Theorem C75_read_back_refuted : forall s, squawks_of_value (squawks_to_value s) = None.
Proof. intros s. reflexivity. Qed.
Print Assumptions C75_read_back_refuted.

Definition sq_doc : json := JObj [
  (s2t "NonDiscreteColor", JStr (s2t "#FF8000")); (s2t "Version", JNum (s2t "1"));
  (s2t "Squawks", JArr [
     JObj [(s2t "message", JStr (s2t "EMERG")); (s2t "code", JStr (s2t "7700")); (s2t "color", JStr (s2t "#ff0000"))];
     JObj [(s2t "range", JObj [(s2t "start", JStr (s2t "1000")); (s2t "end", JStr (s2t "1777"))]); (s2t "code", JNull); (s2t "message", JStr []); (s2t "color", JStr (s2t "#00ff00"))]]);
  (s2t "NonDiscrete", JArr [JStr (s2t "2000")]); (s2t "NonDiscreteMessage", JStr (s2t "ND"))].
Example C75_nonvacuous : exists s, squawks_of_value sq_doc = Some s /\ sq_colour s = mkColour 255 128 0 255 /\
  sq_defs s = [mkDef (Some (s2t "7700")) None (s2t "EMERG") (mkColour 255 0 0 255); mkDef None (Some (mkRange (s2t "1000") (s2t "1777"))) [] (mkColour 0 255 0 255)] /\
  squawks_of_value (JObj [(s2t "NonDiscreteColor", JStr (s2t "red"))]) = None.
Proof. eexists. split; [vm_compute; reflexivity|]. repeat split. Qed.
