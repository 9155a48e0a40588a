(** Property theorems: coordinates in degrees, minutes and seconds (C09, C10). *)
From Coq Require Import Reals.
From Flocq Require Import Core BinarySingleNaN.
From Verif Require Import Base Num Float Dms SpecDms DmsProofs.

(** A latitude and a longitude given to the millisecond are written back as the text they were read from.
    The property asks for at most 180 degrees; this covers 255. *)
Theorem C09_read_write : forall hlat dlat mlat slat hlng dlng mlng slng,
  latitude_letter hlat -> longitude_letter hlng ->
  (dlat <= 255 /\ mlat <= 59 /\ slat <= 59999)%N -> (dlng <= 255 /\ mlng <= 59 /\ slng <= 59999)%N ->
  exists lat lng,
    parse_part (s2t hlat) (digits 3 dlat) (digits 2 mlat) (seconds_text slat) = Ret lat /\
    parse_part (s2t hlng) (digits 3 dlng) (digits 2 mlng) (seconds_text slng) = Ret lng /\
    deg_min_sec_fmt (from_deg_min_sec lat lng) =
      Some (coordinate_text hlat dlat mlat slat ++ s2t " " ++ coordinate_text hlng dlng mlng slng).
Proof.
  intros hlat dlat mlat slat hlng dlng mlng slng L1 L2 [A [B C]] [A' [B' C']].
  destruct (read_write_part true hlat dlat mlat slat L1 A B C) as [lat [P W]].
  destruct (read_write_part false hlng dlng mlng slng L2 A' B' C') as [lng [P' W']].
  exists lat, lng. split; [exact P|]. split; [exact P'|].
  unfold deg_min_sec_fmt, lat_fmt, lng_fmt, from_deg_min_sec, px, py. cbn [fst snd]. rewrite W, W'. reflexivity.
Qed.
Print Assumptions C09_read_write.
Example C09_read_write_nonvacuous :
  coordinate_text "N" 48 40 59999 ++ s2t " " ++ coordinate_text "W" 0 0 1 = s2t "N048.40.59.999 W000.00.00.001" /\
  match parse_part (s2t "N") (s2t "048") (s2t "40") (s2t "59.999"), parse_part (s2t "W") (s2t "000") (s2t "00") (s2t "00.001") with
  | Ret lat, Ret lng => deg_min_sec_fmt (from_deg_min_sec lat lng) = Some (s2t "N048.40.59.999 W000.00.00.001")
  | _, _ => False
  end.
Proof. vm_compute. split; reflexivity. Qed.

(** What any coordinate is written as: the hemisphere of its sign, and degrees, minutes and seconds within 0.000501 seconds of it. *)
Theorem C09_write_close : forall x (lat : bool), finite x -> (Rabs (real_value x) < 256)%R -> exists h deg min ms,
  (if lat then latitude_letter h else longitude_letter h) /\
  dms_fmt x lat = Some (coordinate_text h deg min ms) /\ (deg <= 255 /\ min <= 60 /\ ms <= 60000)%N /\
  (Rabs (Rabs (real_value x) - (IZR (Z.of_N deg) + IZR (Z.of_N min) / 60 + IZR (Z.of_N ms) / 3600000)) <= 501 / 1000000 / 3600)%R /\
  (real_value x = hemisphere_sign h * Rabs (real_value x))%R.
Proof. exact write_close. Qed.
Print Assumptions C09_write_close.
Example C09_write_close_nonvacuous : exists x, finite x /\ (Rabs (real_value x) < 256)%R /\ dms_fmt x true = Some (s2t "S000.30.00.000").
Proof.
  exists (f64_of_dec true 5 1). split; [vm_compute; split; reflexivity|]. split; [|vm_compute; reflexivity].
  replace (f64_of_dec true 5 1) with (S754_finite true 4503599627370496 (-53)) by (vm_compute; reflexivity).
  apply half_small.
Qed.

(** The text of a general coordinate can say 60 seconds, or 60 minutes. *)
Theorem C09_sixty_refuted : ~ (forall x t, finite x -> dms_fmt x true = Some t ->
  exists h deg min ms, t = coordinate_text h deg min ms /\ (min <= 59 /\ ms <= 59999)%N).
Proof.
  intros H. destruct (H (dms_value (Pos, 48%N, 40%N, f64_of_dec false 599999 4)) (s2t "N048.40.60.000")) as [h [deg [min [ms [E B]]]]].
  - vm_compute. split; reflexivity.
  - vm_compute. reflexivity.
  - revert E B. apply sixty_text.
Qed.
Print Assumptions C09_sixty_refuted.
Example C09_sixty_minutes : dms_fmt (dms_value (Pos, 48%N, 59%N, f64_of_dec false 599999999 7)) true = Some (s2t "N048.60.00.000").
Proof. vm_compute. reflexivity. Qed.

(** Beyond 255 degrees (the UK's dummy coordinates, lib.rs:35) the text changes. *)
Theorem C09_dummy_refuted : exists lat,
  parse_part (s2t "S") (s2t "999") (s2t "00") (s2t "00.000") = Ret lat /\ dms_fmt (dms_value lat) true = Some (s2t "S255.00.00.000").
Proof. exists (Neg, 999%N, 0%N, S754_zero false). split; vm_compute; reflexivity. Qed.
Print Assumptions C09_dummy_refuted.

(** Latitude is y and longitude is x, each with the sign of its hemisphere, zero included. *)
Theorem C10_sign : forall hlat dlat mlat slat hlng dlng mlng slng,
  (dlat <= 65535 /\ mlat <= 255)%N -> (dlng <= 65535 /\ mlng <= 255)%N -> nonneg slat -> nonneg slng ->
  match hlng with Pos => nonneg | Neg => nonpos end (fst (from_deg_min_sec (hlat, dlat, mlat, slat) (hlng, dlng, mlng, slng))) /\
  match hlat with Pos => nonneg | Neg => nonpos end (snd (from_deg_min_sec (hlat, dlat, mlat, slat) (hlng, dlng, mlng, slng))).
Proof.
  intros hlat dlat mlat slat hlng dlng mlng slng [A B] [A' B'] S S'. cbn [fst snd from_deg_min_sec]. split; apply sign_cases; assumption.
Qed.
Print Assumptions C10_sign.
Example C10_sign_nonvacuous : nonneg (f64_of_Z 0) /\ nonneg (f64_of_Z 59) /\
  match from_deg_min_sec (Neg, 0, 0, f64_of_Z 0)%N (Neg, 0, 30, f64_of_Z 59)%N with
  | (S754_finite true _ _, S754_zero true) => True
  | _ => False
  end.
Proof. vm_compute. auto. Qed.

(** The letters *)
Theorem C10_letters : forall h d m s part, parse_part (s2t h) d m s = Ret part ->
  (h = "N" \/ h = "E" \/ h = "n" \/ h = "e")%string /\ fst (fst (fst part)) = Pos \/
  (h = "S" \/ h = "W" \/ h = "s" \/ h = "w")%string /\ fst (fst (fst part)) = Neg.
Proof. exact part_letters. Qed.
Print Assumptions C10_letters.

(** The value itself: at most 10^-13 degrees from the exact one. *)
Theorem C10_value : forall h deg min ms, latitude_letter h \/ longitude_letter h -> (deg <= 255)%N -> (min <= 59)%N -> (ms <= 59999)%N ->
  exists part, parse_part (s2t h) (digits 3 deg) (digits 2 min) (seconds_text ms) = Ret part /\ finite (dms_value part) /\
    (Rabs (real_value (dms_value part) - hemisphere_sign h * (IZR (Z.of_N deg) + IZR (Z.of_N min) / 60 + IZR (Z.of_N ms) / 3600000)) <= / 10000000000000)%R.
Proof. exact read_close. Qed.
Print Assumptions C10_value.
