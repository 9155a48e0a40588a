(** Specification vocabulary for files whose lines have fields. *)
From Verif Require Import Base SpecText.
Local Open Scope N_scope.

(** Lines end with LF or CR LF *)
Definition eol (nl : text) : Prop := nl = [10] \/ nl = [13; 10].
(** no blank at the start nor at the end *)
Definition trimmed (w : text) : Prop :=
  (forall c v, w = c :: v -> is_blank c = false) /\ (forall v c, w = v ++ [c] -> is_blank c = false).
(** a field does not have the delimiter and stays in its line *)
Definition field (delimiter : N) (w : text) : Prop :=
  Forall (fun c => c <> delimiter /\ c <> 10 /\ c <> 13) w /\ trimmed w.
(** lines that start with ; or // are remarks, and so may not be content *)
Definition unremarked (w : text) : Prop := forall c v, w = c :: v -> c <> 59 /\ c <> 47.
(** with an optional sign *)
Definition whole (s : text) : Prop := exists sg u, s = sg ++ u /\ (sg = [] \/ sg = s2t "-" \/ sg = s2t "+") /\ digits u.

(** The text of a file is made of lines of content in an order.  Around them there may be white space (its characters
    are [space]), empty lines and lines with remarks (which start with one of [marks]). *)
Section Layout.
  Variable space : N -> bool.
  Variable marks : list text.
  Definition spaces (b : text) : Prop := Forall (fun c => space c = true) b.
  Definition idle (v : text) : Prop := spaces v \/ exists b h c, v = b ++ h ++ c /\ spaces b /\ In h marks /\ in_line c.
  Inductive idles : text -> Prop :=
  | idles_nil : idles []
  | idles_cons v nl k : idle v -> eol nl -> idles k -> idles (v ++ nl ++ k).
  Inductive laid : list text -> text -> Prop :=
  | laid_nil : laid [] []
  | laid_cons l ls b nl k b' t : spaces b -> eol nl -> idles k -> spaces b' -> laid ls t -> laid (l :: ls) (l ++ b ++ nl ++ k ++ b' ++ t).
  Definition layout (ls : list text) (t : text) : Prop := exists k b t', t = k ++ b ++ t' /\ idles k /\ spaces b /\ laid ls t'.
End Layout.
