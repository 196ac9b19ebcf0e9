(** Theorems about the design matrix of time-dependent models, spline breaks
    and collocation, power spectra, degree correlation and sensitivity
    (C33-C38, C74).  [vec 0 l] is the one-dimensional array with entries l. *)
From Coq Require Import Reals List Arith ZArith String Bool Lia Lra Sorted.
From Verif Require Import M_Prelude M_ND Spec_Field M_Synth M_SynthArr M_Spectrum M_Spline
  P_Spectrum P_Spectrum2 P_Spectrum3 P_Spline P_Spline4 P_DesignMatrix P_SynthWit P_ChaosErr.
Import ListNotations.
Open Scope R_scope.

(** ** C33 *)
(** Row i times the parameters p is the field, at datum i, of the coefficients
    q: coefficient j of the time-dependent part is the spline with B-spline
    coefficients p[j*nseg], ..., p[j*nseg+nseg-1] at the time of the datum; the
    remaining coefficients are the static parameters, which come last.
    [junk] is uninitialised memory. *)
Theorem C33_design_matrix_predicts_the_field :
  forall junk oob a knots order n_tdep time radius theta phi n_static s D p i N,
  design_matrix junk oob a knots order n_tdep time radius theta phi n_static (Some (src_name s)) = Ok D ->
  (1 <= order)%nat -> (2 * order <= List.length knots)%nat -> sh time = [N] -> (i < N)%nat ->
  let nseg := (List.length knots - order)%nat in
  nth (order - 1) knots 0 <= at_ time [i] <= nth nseg knots 0 ->
  exists ns q F,
    match n_static with None => ns = n_tdep | Some z => z = Z.of_nat ns end /\ (n_tdep <= ns)%nat /\
    let nct := (n_tdep * (n_tdep + 2))%nat in let ncs := (ns * (ns + 2))%nat in
    List.length q = ncs /\
    (forall j, (j < nct)%nat ->
       bspline_eval knots (map (fun k => p (j * nseg + k)%nat) (seq 0 nseg)) (order - 1) (at_ time [i]) 0 = Some (nth j q 0)) /\
    (forall j, (nct <= j < ncs)%nat -> nth j q 0 = p (nct * nseg + (j - nct))%nat) /\
    synth_values oob a (cvec q) (scalar (at_ radius [i])) (scalar (at_ theta [i])) (scalar (at_ phi [i]))
      None (Some (Z.of_nat ns)) None (Some (src_name s)) false = Ok F /\
    m_cols D = (nct * nseg + (ncs - nct))%nat /\
    exists Gr Gt Gp,
      (forall k, (k < m_cols D)%nat -> m_r D i k = Some (Gr k) /\ m_t D i k = Some (Gt k) /\ m_p D i k = Some (Gp k)) /\
      Rsum (map (fun k => Gr k * p k) (seq 0 (m_cols D))) = f_r F [] /\
      Rsum (map (fun k => Gt k * p k) (seq 0 (m_cols D))) = f_t F [] /\
      Rsum (map (fun k => Gp k * p k) (seq 0 (m_cols D))) = f_p F [].
Proof. exact C33. Qed.

Theorem C33_valid_input_succeeds : forall junk oob a b order knots n_tdep ns time radius theta phi N s,
  (1 <= n_tdep <= ns)%nat -> (1 <= order)%nat ->
  (2 <= List.length b)%nat -> augment_breaks b (Z.of_nat order) = Ok knots ->
  sh time = [S N] -> sh radius = [S N] -> sh theta = [S N] -> sh phi = [S N] ->
  (forall i, (i <= N)%nat -> 0 < at_ theta [i] < 180) ->
  exists D, design_matrix junk oob a knots order n_tdep time radius theta phi (Some (Z.of_nat ns)) (Some (src_name s)) = Ok D.
Proof. exact C33_ok. Qed.

Theorem C33_static_degree_below_time_dependent_degree_raises :
  forall junk oob a knots order n_tdep time radius theta phi z source, (z < Z.of_nat n_tdep)%Z ->
  is_err (design_matrix junk oob a knots order n_tdep time radius theta phi (Some z) source).
Proof. exact C33_bad_static. Qed.
Theorem C33_exceptions_for_the_static_degree : forall junk oob a knots order n_tdep time radius theta phi z0 source D z,
  design_matrix junk oob a knots order n_tdep time radius theta phi z0 source = Ok D -> (z < Z.of_nat n_tdep)%Z ->
  design_matrix junk oob a knots order n_tdep time radius theta phi (Some z) source = Err (if (z =? 0)%Z then AssertionError else ValueError).
Proof. exact static_degree_errors. Qed.

(** ** C34 *)
Theorem C34_end_breaks_repeated : forall (b : list R) k d, b <> [] ->
  exists t, augment_breaks b (Z.of_nat (S k)) = Ok t /\
    t = (repeat (hd d b) k ++ b ++ repeat (last b d) k)%list /\ List.length t = (List.length b + 2 * S k - 2)%nat.
Proof. exact C34_shape. Qed.

Theorem C34_sorted_breaks_give_sorted_knots : forall (b : list R) k t,
  StronglySorted Rle b -> augment_breaks b k = Ok t -> StronglySorted Rle t.
Proof. exact C34_sorted. Qed.

Theorem C34_no_breaks_raises : forall k, @augment_breaks R [] k = Err IndexError.
Proof. exact (fun k => eq_refl). Qed.

(** ** C35 *)
Theorem C35_internal_spectrum : forall a l r nmax W N, 0 < a -> 0 < r -> List.length l = (N * (N + 2))%nat ->
  power_spectrum a (vec 0 l) (Some r) nmax (Some "internal"%string) None = Ok W ->
  exists K, sh W = [K] /\ Z.of_nat K = match nmax with None => Z.of_nat N | Some n => Z.min n (Z.of_nat N) end /\
  forall n, (1 <= n <= K)%nat -> at_ W [(n - 1)%nat] = INR (n + 1) * (a / r) ^ (2 * n + 4) * degree_power l n.
Proof. exact C35_internal. Qed.

Theorem C35_external_spectrum : forall a l r nmax W N, 0 < a -> 0 < r -> List.length l = (N * (N + 2))%nat ->
  power_spectrum a (vec 0 l) (Some r) nmax (Some "external"%string) None = Ok W ->
  exists K, sh W = [K] /\ Z.of_nat K = match nmax with None => Z.of_nat N | Some n => Z.min n (Z.of_nat N) end /\
  forall n, (1 <= n <= K)%nat -> at_ W [(n - 1)%nat] = INR n * (r / a) ^ (2 * n - 2) * degree_power l n.
Proof. exact C35_external. Qed.

Theorem C35_toroidal_spectrum : forall a l r nmax W N, 0 < a -> 0 < r -> List.length l = (N * (N + 2))%nat ->
  power_spectrum a (vec 0 l) (Some r) nmax (Some "toroidal"%string) None = Ok W ->
  exists K, sh W = [K] /\ Z.of_nat K = match nmax with None => Z.of_nat N | Some n => Z.min n (Z.of_nat N) end /\
  forall n, (1 <= n <= K)%nat -> at_ W [(n - 1)%nat] = INR (n * (n + 1)) / INR (2 * n + 1) * degree_power l n.
Proof. exact C35_toroidal. Qed.

Theorem C35_valid_input_succeeds : forall a l r name nmax N, List.length l = (N * (N + 2))%nat ->
  name = "internal"%string \/ name = "external"%string \/ name = "toroidal"%string ->
  match nmax with None => True | Some n => (0 <= n)%Z end ->
  exists W, power_spectrum a (vec 0 l) (Some r) nmax (Some name) None = Ok W.
Proof. exact C35_success. Qed.

Theorem C35_unknown_source_raises : forall a c radius nmax name axis,
  name <> "internal"%string -> name <> "external"%string -> name <> "toroidal"%string ->
  is_err (power_spectrum a c radius nmax (Some name) axis).
Proof. exact C35_unknown. Qed.
Theorem C35_unknown_source_is_a_ValueError : forall a c radius nmax name axis W, power_spectrum a c radius nmax (Some "internal"%string) axis = Ok W ->
  name <> "internal"%string -> name <> "external"%string -> name <> "toroidal"%string ->
  power_spectrum a c radius nmax (Some name) axis = Err ValueError.
Proof. exact spectrum_value_error. Qed.

(** Along axis j of an array: the other axes are kept, and the entry at index x
    is the entry of the spectrum of the coefficient vector through x. *)
Theorem C35_other_axes_are_independent : forall a c radius nmax source j W x, (j < List.length (sh c))%nat ->
  power_spectrum a c radius nmax source (Some (Z.of_nat j)) = Ok W -> List.length x = List.length (sh c) ->
  (nth j x 0 < nth j (sh W) 0)%nat ->
  (forall i, i <> j -> nth i (sh W) 0%nat = nth i (sh c) 0%nat) /\
  exists W', power_spectrum a (vec 0 (map (fun k => at_ c (firstn j x ++ k :: skipn (S j) x)) (seq 0 (nth j (sh c) 0%nat))))
               radius nmax source None = Ok W' /\
    at_ W x = at_ W' [nth j x 0%nat].
Proof. exact C35_fibre. Qed.

Theorem C35_negative_axis_counts_from_the_end : forall a c radius nmax source j, (j < List.length (sh c))%nat ->
  power_spectrum a c radius nmax source (Some (Z.of_nat j - Z.of_nat (List.length (sh c)))%Z) =
  power_spectrum a c radius nmax source (Some (Z.of_nat j)).
Proof. exact C35_neg_axis. Qed.

Theorem C35_default_radius_is_the_surface : forall a c nmax source axis, 0 < a ->
  power_spectrum a c None nmax source axis = power_spectrum a c (Some a) nmax source axis.
Proof. exact C35_default_radius. Qed.

(** ** C36 *)
Theorem C36_nonnegative_and_zero_exactly_without_coefficients : forall a l r name nmax W N,
  0 < a -> 0 < r -> List.length l = (N * (N + 2))%nat ->
  power_spectrum a (vec 0 l) (Some r) nmax (Some name) None = Ok W ->
  forall n, (1 <= n)%nat -> (n <= nth 0 (sh W) 0)%nat ->
    0 <= at_ W [(n - 1)%nat] /\ (at_ W [(n - 1)%nat] = 0 <-> degree_vanishes l n).
Proof. exact C36_nonneg_zero. Qed.

Theorem C36_quadratic : forall a l r name nmax W W' N k, 0 < a -> 0 < r -> List.length l = (N * (N + 2))%nat ->
  power_spectrum a (vec 0 l) (Some r) nmax (Some name) None = Ok W ->
  power_spectrum a (vec 0 (map (Rmult k) l)) (Some r) nmax (Some name) None = Ok W' ->
  sh W' = sh W /\ forall n, (1 <= n)%nat -> (n <= nth 0 (sh W) 0)%nat -> at_ W' [(n - 1)%nat] = k ^ 2 * at_ W [(n - 1)%nat].
Proof. exact C36_scale. Qed.

Theorem C36_depends_only_on_the_coefficients_of_the_degree : forall a l l' r name nmax W W' N n, 0 < a -> 0 < r ->
  List.length l = (N * (N + 2))%nat -> List.length l' = (N * (N + 2))%nat ->
  power_spectrum a (vec 0 l) (Some r) nmax (Some name) None = Ok W ->
  power_spectrum a (vec 0 l') (Some r) nmax (Some name) None = Ok W' ->
  (1 <= n)%nat -> (n <= nth 0 (sh W) 0)%nat ->
  (forall m, (m <= n)%nat -> nth (g_position n m) l 0 = nth (g_position n m) l' 0 /\
     (m <> O -> nth (h_position n m) l 0 = nth (h_position n m) l' 0)) ->
  at_ W [(n - 1)%nat] = at_ W' [(n - 1)%nat].
Proof. exact C36_local. Qed.

Theorem C36_internal_radius_law : forall a l r r' nmax W W' N, 0 < a -> 0 < r -> 0 < r' -> List.length l = (N * (N + 2))%nat ->
  power_spectrum a (vec 0 l) (Some r) nmax (Some "internal"%string) None = Ok W ->
  power_spectrum a (vec 0 l) (Some r') nmax (Some "internal"%string) None = Ok W' ->
  forall n, (1 <= n)%nat -> (n <= nth 0 (sh W) 0)%nat -> at_ W' [(n - 1)%nat] = (r / r') ^ (2 * n + 4) * at_ W [(n - 1)%nat].
Proof. exact C36_radius. Qed.

(** ** C37 *)
Theorem C37_value_range_and_nan : forall l1 l2 N v n, List.length l1 = (N * (N + 2))%nat -> List.length l2 = (N * (N + 2))%nat ->
  degree_correlation (vec 0 l1) (vec 0 l2) = Ok v -> (1 <= n <= N)%nat ->
  List.length v = N /\
  ((degree_vanishes l1 n \/ degree_vanishes l2 n) /\ nth (n - 1) v NaN = NaN \/
   ~ degree_vanishes l1 n /\ ~ degree_vanishes l2 n /\
   exists c, nth (n - 1) v NaN = Fin c /\
     c = degree_product l1 l2 n / (sqrt (degree_power l1 n) * sqrt (degree_power l2 n)) /\ -1 <= c <= 1).
Proof. exact C37_value. Qed.

Theorem C37_same_size_succeeds : forall l1 l2, List.length l1 = List.length l2 ->
  exists v, degree_correlation (vec 0 l1) (vec 0 l2) = Ok v.
Proof. exact corr_ok. Qed.

Theorem C37_symmetric : forall l1 l2, degree_correlation (vec 0 l1) (vec 0 l2) = degree_correlation (vec 0 l2) (vec 0 l1).
Proof. exact C37_sym. Qed.

Theorem C37_self_correlation_is_one : forall l N v n, List.length l = (N * (N + 2))%nat ->
  degree_correlation (vec 0 l) (vec 0 l) = Ok v -> (1 <= n <= N)%nat -> ~ degree_vanishes l n -> nth (n - 1) v NaN = Fin 1.
Proof. exact C37_self. Qed.

Theorem C37_positive_scaling : forall l1 l2 k, 0 < k ->
  degree_correlation (vec 0 (map (Rmult k) l1)) (vec 0 l2) = degree_correlation (vec 0 l1) (vec 0 l2).
Proof. exact C37_scale. Qed.

Theorem C37_other_shapes_raise : forall c1 c2, List.length (sh c1) <> 1%nat \/ List.length (sh c2) <> 1%nat ->
  degree_correlation c1 c2 = Err ValueError /\ sensitivity c1 c2 = Err ValueError.
Proof. exact C37_errors. Qed.
Theorem C37_other_sizes_raise : forall l1 l2, List.length l1 <> List.length l2 ->
  degree_correlation (vec 0 l1) (vec 0 l2) = Err ValueError /\ sensitivity (vec 0 l1) (vec 0 l2) = Err ValueError.
Proof. exact C37_mismatch. Qed.

(** ** C38 *)
(** The claim without restriction fails: a degree without power gives NaN. *)
Theorem C38_sensitivity_of_identical_models_refuted :
  ~ (forall l N v i, List.length l = (N * (N + 2))%nat -> (i < N * (N + 2))%nat ->
       sensitivity (vec 0 l) (vec 0 l) = Ok v -> nth i v NaN = Fin 0).
Proof. intros H. specialize (H [0; 0; 0] 1%nat _ 0%nat eq_refl ltac:(lia) C38_refute). discriminate H. Qed.

(** Position i holds a coefficient of degree n. *)
Theorem C38_sensitivity_formula : forall l1 l2 N v n i, List.length l1 = (N * (N + 2))%nat -> List.length l2 = (N * (N + 2))%nat ->
  sensitivity (vec 0 l1) (vec 0 l2) = Ok v -> (1 <= n <= N)%nat ->
  (exists m, (m <= n)%nat /\ (i = g_position n m \/ (m <> O /\ i = h_position n m))) -> ~ degree_vanishes l2 n ->
  List.length v = (N * (N + 2))%nat /\
  nth i v NaN = Fin ((nth i l1 0 - nth i l2 0) / sqrt (degree_power l2 n / INR (2 * n + 1))).
Proof. exact C38_formula. Qed.

Theorem C38_sensitivity_of_identical_models_partial : forall l N v n i, List.length l = (N * (N + 2))%nat ->
  sensitivity (vec 0 l) (vec 0 l) = Ok v -> (1 <= n <= N)%nat ->
  (exists m, (m <= n)%nat /\ (i = g_position n m \/ (m <> O /\ i = h_position n m))) -> ~ degree_vanishes l n ->
  nth i v NaN = Fin 0.
Proof.
  intros l N v n i L E Hn Hi V. destruct (C38_formula l l N v n i L L E Hn Hi V) as [_ Q]. rewrite Q. f_equal.
  unfold Rdiv. rewrite Rminus_diag_eq by reflexivity. ring.
Qed.

Theorem C38_same_size_succeeds : forall l1 l2 N, List.length l1 = (N * (N + 2))%nat -> List.length l2 = (N * (N + 2))%nat ->
  exists v, sensitivity (vec 0 l1) (vec 0 l2) = Ok v.
Proof. exact C38_exists. Qed.

Theorem C38_scaling_both_models : forall l1 l2 N k, List.length l1 = (N * (N + 2))%nat -> List.length l2 = (N * (N + 2))%nat -> 0 < k ->
  sensitivity (vec 0 (map (Rmult k) l1)) (vec 0 (map (Rmult k) l2)) = sensitivity (vec 0 l1) (vec 0 l2).
Proof. exact C38_scale. Qed.

(** ** C74 *)
(** Inside the breaks the rows of the collocation matrix are non-negative and
    sum to one; rows of derivatives sum to zero; at most [order] consecutive
    entries are not zero. *)
Theorem C74_partition_of_unity : forall b order t x deriv M i,
  StronglySorted Rlt b -> (2 <= List.length b)%nat -> (1 <= order)%nat ->
  augment_breaks b (Z.of_nat order) = Ok t -> colloc_matrix x t order deriv = Ok M ->
  let nu := match deriv with None => 0%nat | Some d => d end in
  (i < List.length x)%nat -> hd 0 b <= nth i x 0 <= last b 0 ->
  o_rows M = List.length x /\ o_cols M = (List.length b + order - 2)%nat /\
  exists row, (forall n, (n < o_cols M)%nat -> o_at M i n = Some (row n)) /\
    Rsum (map row (seq 0 (o_cols M))) = (if (nu =? 0)%nat then 1 else 0) /\
    (nu = 0%nat -> forall n, (n < o_cols M)%nat -> 0 <= row n) /\
    exists first, forall n, (n < o_cols M)%nat -> (n < first \/ first + order <= n)%nat -> row n = 0.
Proof. exact C74_inside. Qed.

Theorem C74_outside_is_nan : forall b order t x deriv M i n,
  StronglySorted Rlt b -> (2 <= List.length b)%nat -> (1 <= order)%nat ->
  augment_breaks b (Z.of_nat order) = Ok t -> colloc_matrix x t order deriv = Ok M ->
  let nu := match deriv with None => 0%nat | Some d => d end in
  nth i x 0 < hd 0 b \/ last b 0 < nth i x 0 ->
  ((nu < order)%nat -> o_at M i n = None) /\ ((order <= nu)%nat -> o_at M i n = Some 0).
Proof. exact C74_outside. Qed.

Theorem C74_valid_input_succeeds : forall b order t x deriv, (2 <= List.length b)%nat -> (1 <= order)%nat -> x <> [] ->
  augment_breaks b (Z.of_nat order) = Ok t -> exists M, colloc_matrix x t order deriv = Ok M.
Proof. exact C74_ok. Qed.

(** For any knots at all: derivatives of the order and above are zero, and the
    two ways to fail are fewer knots than the order and no points. *)
Theorem C74_any_knots : forall x knots order deriv, let nu := match deriv with None => 0%nat | Some d => d end in
  ((List.length knots < order)%nat -> colloc_matrix x knots order deriv = Err ValueError) /\
  ((order <= List.length knots)%nat -> (order <= nu)%nat ->
     exists M, colloc_matrix x knots order deriv = Ok M /\ o_rows M = Nat.max (List.length x) 1 /\ o_cols M = (List.length knots - order)%nat /\
       forall i n, o_at M i n = Some 0) /\
  ((order < List.length knots)%nat -> (nu < order)%nat -> x = [] -> colloc_matrix x knots order deriv = Err ValueError) /\
  ((order <= List.length knots)%nat -> x <> [] -> exists M, colloc_matrix x knots order deriv = Ok M /\
     o_rows M = List.length x /\ o_cols M = (List.length knots - order)%nat).
Proof. exact C74_any_knots_p. Qed.

(** ** Concrete cases *)
Example C34_C74_apply_knots : augment_breaks [0; 1; 3] 4 = Ok [0; 0; 0; 0; 1; 3; 3; 3; 3].
Proof. reflexivity. Qed.
Example C74_applies_sorted_breaks : StronglySorted Rlt [0; 1; 3].
Proof. repeat constructor; lra. Qed.
Example C35_C36_apply : exists W,
  power_spectrum 6371.2 (vec 0 [1; 2; 3; 4; 5; 6; 7; 8]) (Some 3485) None (Some "internal"%string) None = Ok W.
Proof. apply (C35_success _ _ _ _ _ 2); [reflexivity|left; reflexivity|exact I]. Qed.
Example C36_C37_C38_apply_degree_two : ~ degree_vanishes [1; 2; 3; 4; 5; 6; 7; 8] 2.
Proof. intros H. destruct (H 0%nat ltac:(lia)) as [E _]. cbn in E. lra. Qed.
Example C35_degree_one_power : degree_power [1; 2; 3; 4; 5; 6; 7; 8] 1 = 14.
Proof. cbn. ring. Qed.
Example C33_applies junk : exists D,
  design_matrix junk 0 6371.2 [0; 0; 1; 2; 2] 2 1 (vec 0 [0.5; 2]) (vec 0 [6371.2; 6400]) (vec 0 [30; 60]) (vec 0 [0; 90])
    (Some 2%Z) (Some "internal"%string) = Ok D.
Proof.
  apply (C33_ok junk 0 6371.2 [0; 1; 2] 2 [0; 0; 1; 2; 2] 1 2 _ _ _ _ 1 Internal); try reflexivity; try (cbn; lia).
  intros [|[|i]] Hi; cbn; lra || lia.
Qed.

Print Assumptions C33_design_matrix_predicts_the_field.
Print Assumptions C33_valid_input_succeeds.
Print Assumptions C33_static_degree_below_time_dependent_degree_raises.
Print Assumptions C34_end_breaks_repeated.
Print Assumptions C34_sorted_breaks_give_sorted_knots.
Print Assumptions C34_no_breaks_raises.
Print Assumptions C35_internal_spectrum.
Print Assumptions C35_external_spectrum.
Print Assumptions C35_toroidal_spectrum.
Print Assumptions C35_valid_input_succeeds.
Print Assumptions C35_unknown_source_raises.
Print Assumptions C35_other_axes_are_independent.
Print Assumptions C35_negative_axis_counts_from_the_end.
Print Assumptions C35_default_radius_is_the_surface.
Print Assumptions C36_nonnegative_and_zero_exactly_without_coefficients.
Print Assumptions C36_quadratic.
Print Assumptions C36_depends_only_on_the_coefficients_of_the_degree.
Print Assumptions C36_internal_radius_law.
Print Assumptions C37_value_range_and_nan.
Print Assumptions C37_same_size_succeeds.
Print Assumptions C37_symmetric.
Print Assumptions C37_self_correlation_is_one.
Print Assumptions C37_positive_scaling.
Print Assumptions C37_other_shapes_raise.
Print Assumptions C37_other_sizes_raise.
Print Assumptions C38_sensitivity_of_identical_models_refuted.
Print Assumptions C38_sensitivity_formula.
Print Assumptions C38_sensitivity_of_identical_models_partial.
Print Assumptions C38_same_size_succeeds.
Print Assumptions C38_scaling_both_models.
Print Assumptions C74_partition_of_unity.
Print Assumptions C74_outside_is_nan.
Print Assumptions C74_valid_input_succeeds.
Print Assumptions C74_any_knots.
Print Assumptions C33_exceptions_for_the_static_degree.
Print Assumptions C35_unknown_source_is_a_ValueError.
