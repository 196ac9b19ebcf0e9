(** C144: texts for numbers; C145: the colour map nio. *)
From Coq Require Import List Arith ZArith QArith Qabs Ascii String Lqa.
From Verif Require Import M_Prelude M_Text Spec_Text M_Label Spec_Label P_Label P_Label2.
Import ListNotations.
Open Scope Q_scope.

(** ** C144 *)
(** [fmt x] of a number x of sign [neg] and size [m]: the text reads as the
    nearest number with two significant digits *)
Theorem C144_tick_labels neg m : 0 < m -> exists k b w, fmt neg m = Ok w /\ tick_label w neg k b /\ shown m k b.
Proof. exact (tick_labels neg m). Qed.
(** so it is at most 5 per cent off *)
Theorem C144_within_five_percent m k b : 0 < m -> shown m k b -> Qabs (two_figures k b - m) <= (5 # 100) * m.
Proof. exact (within_five_percent m k b). Qed.
Theorem C144_zero m : m == 0 -> fmt false m = Ok (chars "$0.0$") /\ fmt true m = Ok (chars "$-0.0$e$0$").
Proof. exact (tick_label_zero m). Qed.
(** [memory_usage]: digits, a point, two digits, MB; rounded to 0.01 MB *)
Theorem C144_memory_of_series b : (0 <= b)%Z -> exists ip c d q,
  memory_usage (Series b) = (ip ++ ["."%char; c; d] ++ chars " MB")%list /\
  List.Forall a_digit ip /\ ip <> [] /\ a_digit c /\ a_digit d /\
  decimal (ip ++ ["."%char; c; d]) q /\ Qabs (q - inject_Z b / 1048576) <= 5 # 1000.
Proof. exact (memory_text b). Qed.
Theorem C144_memory_of_frame l : memory_usage (DataFrame l) = memory_usage (Series (fold_right Z.add 0%Z l)).
Proof. exact (memory_frame l). Qed.

Example C144_example :
  fmt false 65000 = Ok (chars "$6.5$e$4$") /\ fmt true (996 # 100000) = Ok (chars "$-1.0$e$-2$") /\
  fmt false (125 # 100) = Ok (chars "$1.2$e$0$") /\ fmt false (3 # 1000000000000) = Ok (chars "$3.0$e$-12$") /\
  memory_usage (DataFrame [128; 1048576; 524288]%Z) = chars "1.50 MB" /\ memory_usage (Series 0) = chars "0.00 MB".
Proof. vm_compute. repeat split. Qed.

(** ** C145: colours of the values [v] of a map with the limits [plot_maps]
    chooses, -L and L *)
Theorem C145_proper_colours L v : proper (map_colour L v).
Proof. exact (colours_proper L v). Qed.
(** every value within the limits is in one of 256 equal parts, and a part is
    known by its colour *)
Theorem C145_every_value_has_a_part L v : 0 < L -> - L <= v <= L -> exists i, part_of L v i.
Proof. exact (part_exists L v). Qed.
Theorem C145_colours_tell_parts_apart L v w i j : 0 < L -> part_of L v i -> part_of L w j ->
  (same_colour (map_colour L v) (map_colour L w) <-> i = j).
Proof. exact (colours_tell_parts_apart L v w i j). Qed.
Theorem C145_colours_tell_signs L v : 0 < L -> - L <= v <= L ->
  (v < 0 -> red (map_colour L v) < 98 # 100) /\ (0 <= v -> 999 # 1000 < red (map_colour L v)).
Proof. exact (colours_tell_signs L v). Qed.
Theorem C145_negative_half L v w : 0 < L -> - L <= v -> v <= w -> w < 0 -> brighter (map_colour L v) (map_colour L w).
Proof. exact (negative_half L v w). Qed.
Theorem C145_positive_half L v w : 0 < L -> 0 <= v -> v <= w -> w <= L -> green (map_colour L w) <= green (map_colour L v).
Proof. exact (positive_half L v w). Qed.
Theorem C145_beyond_limits L v : 0 < L -> (v < - L -> map_colour L v = map_colour L (- L)) /\ (L < v -> map_colour L v = map_colour L L).
Proof. exact (beyond_limits L v). Qed.
(** black, blue, cyan, white, yellow, red, magenta *)
Theorem C145_way_stations L : 0 < L ->
  near_colour (3 # 100) (map_colour L (- L)) (0, 0, 0) /\
  near_colour (3 # 100) (map_colour L (- (2 # 3) * L)) (0, 0, 1) /\
  near_colour (3 # 100) (map_colour L (- (1 # 3) * L)) (0, 1, 1) /\
  near_colour (1 # 1000) (map_colour L 0) (1, 1, 1) /\
  near_colour (3 # 100) (map_colour L ((1 # 3) * L)) (1, 1, 0) /\
  near_colour (3 # 100) (map_colour L ((2 # 3) * L)) (1, 0, 0) /\
  near_colour (3 # 100) (map_colour L L) (1, 0, 1).
Proof. exact (way_stations L). Qed.

(** a map between -50000 and 50000 nT *)
Example C145_example : 0 < 50000 /\ part_of 50000 (-390) 127 /\ part_of 50000 390 128 /\ part_of 50000 50000 255.
Proof. unfold part_of, inject_Z. repeat split; try reflexivity; try (vm_compute; discriminate); try (left; vm_compute; reflexivity). right. split; reflexivity. Qed.

Print Assumptions C144_tick_labels.
Print Assumptions C144_within_five_percent.
Print Assumptions C144_zero.
Print Assumptions C144_memory_of_series.
Print Assumptions C144_memory_of_frame.
Print Assumptions C145_proper_colours.
Print Assumptions C145_every_value_has_a_part.
Print Assumptions C145_colours_tell_parts_apart.
Print Assumptions C145_colours_tell_signs.
Print Assumptions C145_negative_half.
Print Assumptions C145_positive_half.
Print Assumptions C145_beyond_limits.
Print Assumptions C145_way_stations.
