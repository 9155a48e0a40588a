(** Specification of writing isec.txt (C51). *)
From Coq Require Import Reals.
From Verif Require Import Base Float SpecDms Locations SpecIsec.

(** A fix with finite coordinates of at most 1000 degrees, and one within 0.501 millionths of a degree of it *)
Definition moderate (f : fix_) : Prop :=
  finite (py (f_pos f)) /\ finite (px (f_pos f)) /\ (Rabs (real_value (py (f_pos f))) <= 1000)%R /\ (Rabs (real_value (px (f_pos f))) <= 1000)%R.
Definition near (f f' : fix_) : Prop :=
  f_des f' = f_des f /\ (Rabs (real_value (py (f_pos f')) - real_value (py (f_pos f))) <= 501 / 1000000000)%R /\
  (Rabs (real_value (px (f_pos f')) - real_value (px (f_pos f))) <= 501 / 1000000000)%R.
(** A map as the reader builds it: each designator once, with the fixes of that name; something is listed *)
Definition isec_listing (it : list (text * list fix_)) : Prop :=
  NoDup (map fst it) /\
  (forall k fs f, In (k, fs) it -> In f fs -> f_des f = k /\ name k /\ moderate f) /\
  exists k fs f, In (k, fs) it /\ In f fs.
