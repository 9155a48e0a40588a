(** Property theorems: colours (C03, C04, C05, C36). *)
From Verif Require Import Base Colours SpecColours ColoursProofs.

(** C03: an i32 is accepted iff it is in 0..2^24-1, the colour obtained is the one with
    that number, opaque, and converting back gives the number. *)
Theorem C03_colour_number_read : forall n, (-2147483648 <= n <= 2147483647)%Z ->
  match from_euroscope n with
  | Some c => (0 <= n < 2 ^ 24)%Z /\ wf_colour c /\ ca c = 255%N
              /\ rgb_number (cr c) (cg c) (cb c) = n /\ to_euroscope c = n
  | None => (n < 0 \/ 2 ^ 24 <= n)%Z
  end.
Proof.
  intros n _. pose proof (from_euroscope_spec n) as S. pose proof (from_to_euroscope n) as T.
  destruct (from_euroscope n) as [c|]; [|lia]. repeat (split; [tauto|]). apply T; reflexivity.
Qed.
Print Assumptions C03_colour_number_read.

Theorem C03_colour_number_written : forall c, wf_colour c -> ca c = 255%N ->
  (0 <= to_euroscope c < 2 ^ 24)%Z /\ from_euroscope (to_euroscope c) = Some c.
Proof. exact to_from_euroscope. Qed.
Print Assumptions C03_colour_number_written.

Example C03_nonvacuous :
  from_euroscope 16759296 = Some (mkColour 0 186 255 255) /\ from_euroscope (-1) = None
  /\ from_euroscope (-65536) = None /\ from_euroscope 16777216 = None.
Proof. repeat split; vm_compute; reflexivity. Qed.

(** C04 *)
Theorem C04_colour_serde_roundtrip : forall c, wf_colour c ->
  visit_str (serialize_colour c) = Some (mkColour (cr c) (cg c) (cb c) 255).
Proof. exact visit_serialize. Qed.
Print Assumptions C04_colour_serde_roundtrip.

Theorem C04_colour_text_language : forall s c,
  visit_str s = Some c <->
  exists r1 r2 g1 g2 b1 b2 vr1 vr2 vg1 vg2 vb1 vb2,
    s = [35%N; r1; r2; g1; g2; b1; b2] /\
    hex_digit r1 vr1 /\ hex_digit r2 vr2 /\ hex_digit g1 vg1 /\ hex_digit g2 vg2 /\
    hex_digit b1 vb1 /\ hex_digit b2 vb2 /\
    c = mkColour (16 * vr1 + vr2) (16 * vg1 + vg2) (16 * vb1 + vb2) 255.
Proof. exact visit_str_spec. Qed.
Print Assumptions C04_colour_text_language.

Example C04_nonvacuous :
  serialize_colour (mkColour 255 10 0 7) = s2t "#ff0a00" /\ visit_str (s2t "#Ff0a00") = Some (mkColour 255 10 0 255)
  /\ visit_str (s2t "#ff0a0") = None /\ visit_str (s2t "#ff0a0g") = None.
Proof. repeat split; vm_compute; reflexivity. Qed.

(** C05: for any hash iteration orders of the two maps. *)
Theorem C05_colour_lookup_precedence : forall items sct sct_order ts ts_order coopans name,
  NoDup (keys sct) -> iteration_of sct sct_order ->
  NoDup (keys ts) -> iteration_of ts ts_order ->
  exists d, builtin_default coopans name d /\
    colours_get (colours_from_euroscope items sct_order (Some ts_order) coopans) name coopans
    = first_some [get name ts; get name sct; d].
Proof. exact colours_lookup. Qed.
Print Assumptions C05_colour_lookup_precedence.

Theorem C05_colour_lookup_without_topsky : forall items sct sct_order coopans name,
  NoDup (keys sct) -> iteration_of sct sct_order ->
  exists d, builtin_default coopans name d /\
    colours_get (colours_from_euroscope items sct_order None coopans) name coopans
    = first_some [get name sct; d].
Proof. exact colours_lookup_no_topsky. Qed.
Print Assumptions C05_colour_lookup_without_topsky.

Theorem C05_builtin_table_unambiguous : NoDup (map fst default_colours).
Proof. exact default_keys_nodup. Qed.
Print Assumptions C05_builtin_table_unambiguous.

Theorem C05_track_colours : forall items sct_order ts ts_order coopans f n r g b,
  NoDup (keys ts) -> iteration_of ts ts_order ->
  In (f, (n, (r, g, b))) track_names ->
  exists d, builtin_default coopans (s2t n) d /\
  get f (col_track (colours_from_euroscope items sct_order (Some ts_order) coopans)) =
    Some (match first_some [get (s2t n) ts; d] with Some c => c | None => mkColour r g b 255 end).
Proof. exact track_fields. Qed.
Print Assumptions C05_track_colours.

Theorem C05_ui_colours : forall items sct_order ts ts_order coopans f n r g b,
  NoDup (keys ts) -> iteration_of ts ts_order ->
  In (f, (n, (r, g, b))) ui_names ->
  exists d, builtin_default coopans (s2t n) d /\
  get f (col_ui (colours_from_euroscope items sct_order (Some ts_order) coopans)) =
    Some (match first_some [get (s2t n) ts; d] with Some c => c | None => mkColour r g b 255 end).
Proof. exact ui_fields. Qed.
Print Assumptions C05_ui_colours.

Example C05_nonvacuous :
  let sct := [(s2t "VFR", mkColour 1 1 1 255); (s2t "Own", mkColour 2 2 2 255)] in
  let ts := [(s2t "VFR", mkColour 3 3 3 255)] in
  let c := colours_from_euroscope [] sct (Some ts) true in
  NoDup (keys sct) /\ NoDup (keys ts) /\
  colours_get c (s2t "VFR") true = Some (mkColour 3 3 3 255) /\
  colours_get c (s2t "Own") true = Some (mkColour 2 2 2 255) /\
  colours_get c (s2t "Assumed") true = Some (mkColour 220 220 220 255) /\
  colours_get c (s2t "Assumed") false = Some (mkColour 1 0 1 255) /\
  colours_get c (s2t "MQDM") false = None /\ colours_get c (s2t "Nope") false = None.
Proof.
  cbv zeta. split; [|split]; [repeat constructor; cbn; intuition discriminate..|].
  repeat split; vm_compute; reflexivity.
Qed.

(** C36: every map colour except the high-airway name colour comes from its own item. *)
Theorem C36_map_colours_own_item : forall items f k1 k2,
  In (f, (k1, k2)) own_map_key -> f <> "high_airway_name"%string ->
  get f (map_colours items) =
  Some (match get (s2t k1, s2t k2) items with Some c => c | None => black end).
Proof. exact map_colour_own. Qed.
Print Assumptions C36_map_colours_own_item.

Theorem C36_map_colours_fields : forall items, map fst (map_colours items) = map fst own_map_key.
Proof. exact map_colour_complete. Qed.
Print Assumptions C36_map_colours_fields.

(** The high-airway name colour ignores its own item. *)
Theorem C36_high_airway_name_refuted : exists items c,
  get (s2t "High airways", s2t "name") items = Some c /\
  get "high_airway_name"%string (map_colours items) <> Some c.
Proof.
  exists [((s2t "High airways", s2t "name"), mkColour 1 2 3 255)], (mkColour 1 2 3 255).
  split; vm_compute; [reflexivity | discriminate].
Qed.
Print Assumptions C36_high_airway_name_refuted.

Theorem C36_high_airway_name_actual : forall items,
  get "high_airway_name"%string (map_colours items) =
  Some (match get (s2t "High airways", s2t "line") items with Some c => c | None => black end).
Proof. exact high_airway_name_wrong. Qed.
Print Assumptions C36_high_airway_name_actual.
