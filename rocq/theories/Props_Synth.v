(** Theorems about the coefficient layout, [synth_values] and [design_gauss]
    (C18, C19, C24-C32, C72).  [oob] is the value an out-of-range read of the
    table of square roots inside [legendre_poly] would give. *)
From Coq Require Import Reals List Arith ZArith String Bool Lia Lra.
From Coquelicot Require Import Coquelicot.
From Verif Require Import M_Prelude M_ND Spec_Legendre Spec_Field M_Synth M_SynthArr
  P_Synth P_SynthProps P_SynthProps2 P_SynthProps3 P_Laplace P_SynthWit P_SynthErr.
Import ListNotations.
Open Scope R_scope.

(** Call with explicit degree range; [synth_full] takes nmin = 1 and all orders. *)
Definition synth (oob a : R) (c : carr) (radius theta phi : nd R) (nmin nmax mmax : nat) (s : src) : result field :=
  synth_values oob a c radius theta phi (Some (Z.of_nat nmin)) (Some (Z.of_nat nmax)) (Some (Z.of_nat mmax))
    (Some (src_name s)) false.

(** ** C18 *)

(** Whatever coefficient vector is passed, the field is that of the potential
    whose g_n^m and h_n^m are read at the documented positions. *)
Theorem C18_synthesis_reads_documented_positions : forall oob a l r theta phi nmax s F,
  0 < a -> 0 < r -> 0 <= theta <= 180 -> (nmax * (nmax + 2) <= List.length l)%nat ->
  synth oob a (cvec l) (scalar r) (scalar theta) (scalar phi) 1 nmax nmax s = Ok F ->
  let V := potential s a 1 nmax nmax (fun n m => nth (g_position n m) l 0) (fun n m => nth (h_position n m) l 0) in
  is_derive (fun r' => V r' (rad theta) (rad phi)) r (- f_r F []) /\
  is_derive (fun t' => V r t' (rad phi)) (rad theta) (- (r * f_t F [])) /\
  is_derive (fun p' => V r (rad theta) p') (rad phi) (- (r * sin (rad theta) * f_p F [])).
Proof. exact C18_synthesis. Qed.

Theorem C18_every_position_is_used : forall nmax k, (k < nmax * (nmax + 2))%nat ->
  exists n m, (1 <= n <= nmax)%nat /\ (m <= n)%nat /\ (k = g_position n m \/ (1 <= m)%nat /\ k = h_position n m).
Proof. exact positions_cover. Qed.

Theorem C18_positions_are_distinct : forall n m n' m',
  (1 <= n)%nat -> (m <= n)%nat -> (1 <= n')%nat -> (m' <= n')%nat ->
  (g_position n m = g_position n' m' -> n = n' /\ m = m') /\
  ((1 <= m)%nat -> (1 <= m')%nat -> h_position n m = h_position n' m' -> n = n' /\ m = m') /\
  ((1 <= m')%nat -> g_position n m <> h_position n' m').
Proof. exact positions_inj. Qed.

(** ** C19 *)
Theorem C19_design_columns_are_the_coefficients_needed : forall oob a radius theta phi nmax nmin mmax s G,
  design_gauss oob a radius theta phi (Z.of_nat nmax) (Some (Z.of_nat nmin)) (Some (Z.of_nat mmax)) (Some (src_name s)) = Ok G ->
  (forall t, In t (elems theta) -> 0 <= t <= 180) ->
  forall l,
  ((g_dim G <= List.length l)%nat -> exists F, synth oob a (cvec l) radius theta phi nmin nmax mmax s = Ok F) /\
  ((List.length l < g_dim G)%nat -> synth oob a (cvec l) radius theta phi nmin nmax mmax s = Err IndexError).
Proof. exact C19_columns. Qed.

(** Without nmax and mmax, synth_values finds the degrees of the coefficients. *)
Theorem C19_degree_inferred_from_the_number_of_coefficients : forall oob a radius theta phi nmin nmax g h source grid,
  (1 <= nmin <= nmax)%nat ->
  synth_values oob a (cvec (gauss_list nmin nmax nmax g h)) radius theta phi (Some (Z.of_nat nmin)) None None source grid =
  synth_values oob a (cvec (gauss_list nmin nmax nmax g h)) radius theta phi (Some (Z.of_nat nmin))
    (Some (Z.of_nat nmax)) (Some (Z.of_nat nmax)) source grid.
Proof. exact C19_infer. Qed.

Theorem C19_degree_inferred_for_given_order : forall oob a radius theta phi nmin nmax mmax g h source grid,
  (1 <= nmin <= nmax)%nat -> (mmax <= nmax)%nat ->
  synth_values oob a (cvec (gauss_list nmin nmax mmax g h)) radius theta phi (Some (Z.of_nat nmin)) None (Some (Z.of_nat mmax)) source grid =
  synth_values oob a (cvec (gauss_list nmin nmax mmax g h)) radius theta phi (Some (Z.of_nat nmin))
    (Some (Z.of_nat nmax)) (Some (Z.of_nat mmax)) source grid.
Proof. exact C19_infer_mmax. Qed.

(** Defaults: nmin = 1, mmax = nmax, internal source. *)
Theorem C19_defaults : forall oob a c radius theta phi n grid,
  synth_values oob a c radius theta phi None (Some n) None None grid =
  synth_values oob a c radius theta phi (Some 1%Z) (Some n) (Some n) (Some "internal"%string) grid.
Proof. exact C19_def. Qed.

(** ** C24 *)
Theorem C24_synthesis_is_design_matrix_times_coefficients : forall oob a l radius theta phi nmin nmax mmax source G F,
  design_gauss oob a radius theta phi nmax nmin mmax source = Ok G ->
  synth_values oob a (cvec l) radius theta phi nmin (Some nmax) (Some (orZ mmax nmax)) source false = Ok F ->
  f_sh F = g_sh G /\
  forall x,
    f_r F x = Rsum (map (fun k => g_r G x k * nth k l 0) (seq 0 (g_dim G))) /\
    f_t F x = Rsum (map (fun k => g_t G x k * nth k l 0) (seq 0 (g_dim G))) /\
    f_p F x = Rsum (map (fun k => g_p G x k * nth k l 0) (seq 0 (g_dim G))).
Proof. exact C24. Qed.

(** ** C25 *)
Theorem C25_field_is_minus_gradient_of_potential : forall oob a c radius theta phi nmin nmax mmax s F,
  0 < a ->
  synth oob a c radius theta phi nmin nmax mmax s = Ok F ->
  (forall t, In t (elems theta) -> 0 <= t <= 180) ->
  forall x g h rest, valid (f_sh F) x -> 0 < bread radius x ->
  crow c x = gauss_list nmin nmax mmax g h ++ rest ->
  let r := bread radius x in let t := rad (bread theta x) in let p := rad (bread phi x) in
  let V := potential s a nmin nmax mmax g h in
  is_derive (fun r' => V r' t p) r (- f_r F x) /\
  is_derive (fun t' => V r t' p) t (- (r * f_t F x)) /\
  is_derive (fun p' => V r t p') p (- (r * sin t * f_p F x)).
Proof. exact C25. Qed.

(** Valid input is accepted; the shape is the broadcast shape. *)
Theorem C25_valid_input_succeeds : forall oob a c radius theta phi nmin nmax mmax s gsh g h rest,
  (1 <= nmin <= nmax)%nat -> elems theta <> [] -> (forall t, In t (elems theta) -> 0 <= t <= 180) ->
  broadcast [sh radius; sh theta; sh phi; csh c] = Ok gsh ->
  crow c [] = gauss_list nmin nmax mmax g h ++ rest ->
  exists F, synth oob a c radius theta phi nmin nmax mmax s = Ok F /\ f_sh F = gsh.
Proof. exact C25_success. Qed.

(** ** C26 *)
Theorem C26_linear : forall oob a c1 c2 al be radius theta phi nmin nmax mmax source grid F1 F2,
  csh c2 = csh c1 -> cdim c2 = cdim c1 ->
  synth_values oob a c1 radius theta phi nmin nmax mmax source grid = Ok F1 ->
  synth_values oob a c2 radius theta phi nmin nmax mmax source grid = Ok F2 ->
  let c3 := mkcarr (csh c1) (cdim c1) (fun x k => al * cat c1 x k + be * cat c2 x k) in
  exists F3, synth_values oob a c3 radius theta phi nmin nmax mmax source grid = Ok F3 /\
    f_sh F3 = f_sh F1 /\
    forall x, f_r F3 x = al * f_r F1 x + be * f_r F2 x /\
              f_t F3 x = al * f_t F1 x + be * f_t F2 x /\
              f_p F3 x = al * f_p F1 x + be * f_p F2 x.
Proof. exact C26. Qed.

(** ** C27 *)
Theorem C27_pole_values_are_meridional_limits : forall oob a l nmin nmax mmax s r p,
  (1 <= nmin <= nmax)%nat -> (exists g h rest, l = gauss_list nmin nmax mmax g h ++ rest) ->
  let B t := synth oob a (cvec l) (scalar r) (scalar t) (scalar p) nmin nmax mmax s in
  let comp (f : field -> list nat -> R) t := match B t with Ok F => f F [] | Err _ => 0 end in
  forall t0, t0 = 0 \/ t0 = 180 ->
  (exists F, B t0 = Ok F) /\
  filterlim (comp f_r) (within (fun t => 0 < t < 180) (locally t0)) (locally (comp f_r t0)) /\
  filterlim (comp f_t) (within (fun t => 0 < t < 180) (locally t0)) (locally (comp f_t t0)) /\
  filterlim (comp f_p) (within (fun t => 0 < t < 180) (locally t0)) (locally (comp f_p t0)).
Proof. exact C27_limits. Qed.

(** ** C28: [cut K N g] is g with all degrees outside K..N set to zero. *)
Theorem C28_degree_range_is_zero_padding : forall oob a radius theta phi K N nmax mmax s g h rest rest' F F',
  (1 <= K)%nat -> (N <= nmax)%nat -> (forall t, In t (elems theta) -> 0 <= t <= 180) ->
  synth oob a (cvec (gauss_list K N mmax g h ++ rest)) radius theta phi K N mmax s = Ok F ->
  synth oob a (cvec (gauss_list 1 nmax mmax (cut K N g) (cut K N h) ++ rest')) radius theta phi 1 nmax mmax s = Ok F' ->
  f_sh F' = f_sh F /\
  forall x, valid (f_sh F) x -> f_r F' x = f_r F x /\ f_t F' x = f_t F x /\ f_p F' x = f_p F x.
Proof. exact C28. Qed.

(** ** C29 *)
Theorem C29_colatitudes_outside_rejected_refuted :
  ~ (forall oob a c radius theta phi nmin nmax mmax source grid,
       (exists t, In t (elems theta) /\ (t < 0 \/ 180 < t)) ->
       synth_values oob a c radius theta phi nmin nmax mmax source grid = Err ValueError).
Proof. exact C29_refuted. Qed.

Theorem C29_colatitudes_outside_rejected_partial : forall oob a c radius theta phi nmin nmax mmax source grid,
  (exists t, In t (elems theta) /\ (t < 0 \/ 180 < t)) ->
  ~ In 0 (elems theta) -> ~ In 180 (elems theta) ->
  synth_values oob a c radius theta phi nmin nmax mmax source grid = Err ValueError.
Proof. exact C29_partial. Qed.

(** In particular every scalar colatitude outside the range is rejected. *)
Theorem C29_scalar_colatitude_outside_rejected : forall oob a c radius t phi nmin nmax mmax source grid,
  t < 0 \/ 180 < t ->
  synth_values oob a c radius (scalar t) phi nmin nmax mmax source grid = Err ValueError.
Proof. exact C29_scalar. Qed.

(** ** C30 *)
Theorem C30_each_element_is_the_scalar_evaluation : forall oob a c radius theta phi nmin nmax mmax source F,
  synth_values oob a c radius theta phi nmin nmax mmax source false = Ok F ->
  (forall t, In t (elems theta) -> 0 <= t <= 180) ->
  forall x, valid (f_sh F) x ->
  exists F', synth_values oob a (cvec (crow c x)) (scalar (bread radius x)) (scalar (bread theta x)) (scalar (bread phi x))
               nmin nmax mmax source false = Ok F' /\ f_sh F' = [] /\
    f_r F' [] = f_r F x /\ f_t F' [] = f_t F x /\ f_p F' [] = f_p F x.
Proof. exact C30_pointwise. Qed.

Theorem C30_grid_is_the_outer_product : forall oob a l r ts ps nmin nmax mmax source F,
  synth_values oob a (cvec l) (scalar r) (vec 0 ts) (vec 0 ps) nmin nmax mmax source true = Ok F ->
  (forall t, In t ts -> 0 <= t <= 180) ->
  f_sh F = [List.length ts; List.length ps] /\
  forall i j, (i < List.length ts)%nat -> (j < List.length ps)%nat ->
  exists F', synth_values oob a (cvec l) (scalar r) (scalar (nth i ts 0)) (scalar (nth j ps 0))
               nmin nmax mmax source false = Ok F' /\ f_sh F' = [] /\
    f_r F' [] = f_r F [i; j] /\ f_t F' [] = f_t F [i; j] /\ f_p F' [] = f_p F [i; j].
Proof. exact C30_grid. Qed.

(** ** C31 *)
Theorem C31_longitude_periodicity : forall oob a c radius theta phi k nmin nmax mmax source F,
  synth_values oob a c radius theta phi nmin nmax mmax source false = Ok F ->
  let phi' := mknd (sh phi) (fun x => at_ phi x + 360 * IZR (k x)) in
  exists F', synth_values oob a c radius theta phi' nmin nmax mmax source false = Ok F' /\
    f_sh F' = f_sh F /\
    forall x, f_r F' x = f_r F x /\ f_t F' x = f_t F x /\ f_p F' x = f_p F x.
Proof. exact C31_period. Qed.

Theorem C31_zonal_fields_do_not_depend_on_longitude : forall oob a c radius theta phi phi' nmin nmax mmax s F F',
  synth oob a c radius theta phi nmin nmax mmax s = Ok F ->
  synth oob a c radius theta phi' nmin nmax mmax s = Ok F' ->
  (forall t, In t (elems theta) -> 0 <= t <= 180) ->
  forall x g h rest, valid (f_sh F) x -> valid (f_sh F') x ->
  crow c x = gauss_list nmin nmax mmax g h ++ rest ->
  (forall n m, (1 <= m)%nat -> g n m = 0 /\ h n m = 0) ->
  f_p F x = 0 /\ f_r F' x = f_r F x /\ f_t F' x = f_t F x.
Proof. exact C31_zonal. Qed.

(** ** C32 *)
Theorem C32_unknown_source_raises : forall oob a c radius theta phi nmin nmax mmax str grid,
  str <> "internal"%string -> str <> "external"%string ->
  is_err (synth_values oob a c radius theta phi nmin nmax mmax (Some str) grid).
Proof. exact C32_source. Qed.

Theorem C32_empty_degree_range_raises : forall oob a c radius theta phi nmin nmax mmax source grid,
  (nmin < 1 \/ nmax < nmin)%Z ->
  is_err (synth_values oob a c radius theta phi (Some nmin) (Some nmax) mmax source grid).
Proof. exact C32_range. Qed.

(** Which exception: if the other arguments are accepted, ValueError for the
    source; AssertionError for nmin < 1, ValueError for nmax < nmin. *)
Theorem C32_unknown_source_is_a_ValueError : forall oob a c radius theta phi nmin nmax mmax str grid F,
  synth_values oob a c radius theta phi nmin nmax mmax (Some "internal"%string) grid = Ok F ->
  str <> "internal"%string -> str <> "external"%string ->
  synth_values oob a c radius theta phi nmin nmax mmax (Some str) grid = Err ValueError.
Proof. exact source_value_error. Qed.
Theorem C32_unknown_source_is_a_ValueError_in_design_gauss : forall oob a radius theta phi nmin nmax mmax str G,
  design_gauss oob a radius theta phi nmax nmin mmax (Some "internal"%string) = Ok G ->
  str <> "internal"%string -> str <> "external"%string ->
  design_gauss oob a radius theta phi nmax nmin mmax (Some str) = Err ValueError.
Proof. exact source_value_error_design. Qed.
Theorem C32_exceptions_for_degree_ranges : forall oob a c radius theta phi nmin nmax mmax source grid,
  elems theta <> [] -> (forall t, In t (elems theta) -> 0 <= t <= 180) ->
  ((nmin < 1)%Z -> synth_values oob a c radius theta phi (Some nmin) (Some nmax) mmax source grid = Err AssertionError) /\
  ((1 <= nmin)%Z -> (nmax < nmin)%Z -> synth_values oob a c radius theta phi (Some nmin) (Some nmax) mmax source grid = Err ValueError).
Proof. exact range_errors. Qed.
Theorem C32_exception_for_shapes : forall oob a c radius theta phi nmin nmax mmax source e,
  elems theta <> [] -> (forall t, In t (elems theta) -> 0 <= t <= 180) -> (1 <= nmin <= nmax)%Z ->
  broadcast [sh radius; sh theta; sh phi; csh c] = Err e ->
  synth_values oob a c radius theta phi (Some nmin) (Some nmax) mmax source false = Err ValueError.
Proof. exact shape_error. Qed.

Theorem C32_too_few_coefficients_raises : forall oob a c radius theta phi nmin nmax mmax s gsh,
  (1 <= nmin <= nmax)%nat -> elems theta <> [] -> (forall t, In t (elems theta) -> 0 <= t <= 180) ->
  broadcast [sh radius; sh theta; sh phi; csh c] = Ok gsh ->
  (forall g h, cdim c < List.length (gauss_list nmin nmax mmax g h))%nat ->
  synth oob a c radius theta phi nmin nmax mmax s = Err IndexError.
Proof. exact C32_few. Qed.

Theorem C32_incompatible_shapes_raise : forall oob a c radius theta phi nmin nmax mmax source e,
  broadcast [sh radius; sh theta; sh phi; csh c] = Err e ->
  is_err (synth_values oob a c radius theta phi nmin nmax mmax source false).
Proof. exact C32_shapes. Qed.

Theorem C32_no_points_raises : forall oob a c radius theta phi nmin nmax mmax source grid,
  elems theta = [] -> synth_values oob a c radius theta phi nmin nmax mmax source grid = Err ValueError.
Proof. exact C32_empty. Qed.

(** ** C72: the field is free of divergence; t and p in radians *)
Theorem C72_field_is_divergence_free : forall oob a l nmin nmax mmax s r theta phi,
  0 < a -> 0 < r -> 0 < theta < 180 -> (1 <= nmin <= nmax)%nat ->
  (exists g h rest, l = gauss_list nmin nmax mmax g h ++ rest) ->
  let B r t p := synth oob a (cvec l) (scalar r) (scalar (t * 180 / PI)) (scalar (p * 180 / PI)) nmin nmax mmax s in
  let comp (f : field -> list nat -> R) r t p := match B r t p with Ok F => f F [] | Err _ => 0 end in
  let t := rad theta in let p := rad phi in
  exists d_r d_t d_p,
    is_derive (fun x => x ^ 2 * comp f_r x t p) r d_r /\
    is_derive (fun x => sin x * comp f_t r x p) t d_t /\
    is_derive (fun x => comp f_p r t x) p d_p /\
    d_r / r ^ 2 + d_t / (r * sin t) + d_p / (r * sin t) = 0.
Proof. exact C72_div. Qed.

(** ** Concrete cases *)
(** An axial dipole g10 = -30000 nT at the surface of a sphere of radius 6371.2. *)
Example C25_dipole_at_60_degrees :
  exists F, synth 0 6371.2 (cvec [-30000; 0; 0]) (scalar 6371.2) (scalar 60) (scalar 10) 1 1 1 Internal = Ok F /\
    f_r F [] = -30000 /\ f_t F [] = -30000 * (sqrt 3 / 2) /\ f_p F [] = 0.
Proof. exact ex_dipole. Qed.

(** The order of the coefficients up to degree 2. *)
Example C18_C25_gauss_list_order g h :
  gauss_list 1 2 2 g h = [g 1 0; g 1 1; h 1 1; g 2 0; g 2 1; h 2 1; g 2 2; h 2 2]%nat.
Proof. reflexivity. Qed.

(** Broadcasting of an array of colatitudes with scalars. *)
Example C25_C30_array_case : exists F,
  synth 0 6371.2 (cvec [1; 2; 3; 4; 5; 6; 7; 8]) (scalar 6400) (vec 0 [0; 45; 180]) (scalar 10) 1 2 2 External = Ok F /\ f_sh F = [3%nat].
Proof. exact ex_array. Qed.
Example C30_grid_case : exists F,
  synth_values 0 6371.2 (cvec [1; 2; 3]) (scalar 6400) (vec 0 [30; 45]) (vec 0 [10; 20; 30]) None None None None true = Ok F.
Proof. exact ex_grid. Qed.
Example C19_design_case : exists G,
  design_gauss 0 6371.2 (scalar 6400) (vec 0 [30; 45]) (scalar 10) 3 (Some 2%Z) (Some 1%Z) None = Ok G /\ g_dim G = 6%nat.
Proof. exact ex_design. Qed.

(** The hypotheses of the theorems hold in concrete cases. *)
Ltac accepted := apply sv_success;
  [lia | try rewrite elems_vec; discriminate
  |try rewrite elems_vec; try match goal with |- context [elems (scalar ?x)] => change (elems (scalar x)) with [x] end; cbn [In]; intros t Ht;
   repeat (destruct Ht as [<- |Ht]; [lra|]); contradiction | reflexivity | cbn; lia].
Definition coeffs8 : list R := [-29442; -1501; 4797; -2445; 3013; -2846; 1677; -642].
Definition reading (l : list R) (n m : nat) : R := nth (g_position n m) l 0.
Definition reading_h (l : list R) (n m : nat) : R := nth (h_position n m) l 0.

Example C18_applies : exists F, synth 0 6371.2 (cvec coeffs8) (scalar 6400) (scalar 30) (scalar 200) 1 2 2 Internal = Ok F.
Proof. assert (H : exists F, synth 0 6371.2 (cvec coeffs8) (scalar 6400) (scalar 30) (scalar 200) 1 2 2 Internal = Ok F /\ f_sh F = []) by accepted.
  destruct H as (F & E & _). exists F. exact E. Qed.
Example C19_C24_apply : exists G F, design_gauss 0 6371.2 (scalar 6400) (vec 0 [30; 45]) (scalar 10) (Z.of_nat 3) (Some (Z.of_nat 2)) (Some (Z.of_nat 1)) (Some (src_name Internal)) = Ok G /\
  g_dim G = 6%nat /\ synth 0 6371.2 (cvec coeffs8) (scalar 6400) (vec 0 [30; 45]) (scalar 10) 2 3 1 Internal = Ok F.
Proof.
  destruct ex_design as (G & E & D). exists G.
  assert (E' : design_gauss 0 6371.2 (scalar 6400) (vec 0 [30; 45]) (scalar 10) (Z.of_nat 3) (Some (Z.of_nat 2)) (Some (Z.of_nat 1)) (Some (src_name Internal)) = Ok G) by exact E.
  assert (H : exists F, synth 0 6371.2 (cvec coeffs8) (scalar 6400) (vec 0 [30; 45]) (scalar 10) 2 3 1 Internal = Ok F /\ f_sh F = [2%nat]) by accepted.
  destruct H as (F & EF & _). exists F. auto.
Qed.
Example C25_applies : exists F, synth 0 6371.2 (cvec coeffs8) (scalar 6400) (vec 0 [0; 45; 180]) (scalar 10) 1 2 2 External = Ok F /\
  valid (f_sh F) [1%nat] /\ crow (cvec coeffs8) [1%nat] = (gauss_list 1 2 2 (reading coeffs8) (reading_h coeffs8) ++ [])%list.
Proof.
  assert (H : exists F, synth 0 6371.2 (cvec coeffs8) (scalar 6400) (vec 0 [0; 45; 180]) (scalar 10) 1 2 2 External = Ok F /\ f_sh F = [3%nat]) by accepted.
  destruct H as (F & E & S). exists F. split; [exact E|]. rewrite S. split; [|reflexivity]. repeat constructor.
Qed.
Example C26_applies : exists F1 F2,
  synth 0 6371.2 (cvec [1; 2; 3]) (scalar 6400) (vec 0 [0; 45; 180]) (scalar 10) 1 1 1 Internal = Ok F1 /\
  synth 0 6371.2 (cvec [4; 5; 6]) (scalar 6400) (vec 0 [0; 45; 180]) (scalar 10) 1 1 1 Internal = Ok F2.
Proof.
  assert (H1 : exists F, synth 0 6371.2 (cvec [1; 2; 3]) (scalar 6400) (vec 0 [0; 45; 180]) (scalar 10) 1 1 1 Internal = Ok F /\ f_sh F = [3%nat]) by accepted.
  assert (H2 : exists F, synth 0 6371.2 (cvec [4; 5; 6]) (scalar 6400) (vec 0 [0; 45; 180]) (scalar 10) 1 1 1 Internal = Ok F /\ f_sh F = [3%nat]) by accepted.
  destruct H1 as (F1 & E1 & _), H2 as (F2 & E2 & _). eauto.
Qed.
(** C27 and C72 for eight coefficients, degrees 1 and 2 *)
Example C27_C72_apply : exists g h rest, coeffs8 = (gauss_list 1 2 2 g h ++ rest)%list.
Proof. exists (reading coeffs8), (reading_h coeffs8), []. reflexivity. Qed.
(** C28: degree 2 alone, and degrees 1 to 3 with zeros *)
Example C28_applies : exists g h F F',
  synth 0 6371.2 (cvec (gauss_list 2 2 2 g h ++ [])) (scalar 6400) (vec 0 [0; 45]) (scalar 10) 2 2 2 Internal = Ok F /\
  synth 0 6371.2 (cvec (gauss_list 1 3 2 (cut 2 2 g) (cut 2 2 h) ++ [])) (scalar 6400) (vec 0 [0; 45]) (scalar 10) 1 3 2 Internal = Ok F' /\ g 2%nat 0%nat <> 0.
Proof.
  exists (fun n m => INR (n + m)), (fun n m => INR (n * m)).
  assert (H1 : exists F, synth 0 6371.2 (cvec (gauss_list 2 2 2 (fun n m => INR (n + m)) (fun n m => INR (n * m)) ++ [])) (scalar 6400) (vec 0 [0; 45]) (scalar 10) 2 2 2 Internal = Ok F /\ f_sh F = [2%nat]) by accepted.
  assert (H2 : exists F, synth 0 6371.2 (cvec (gauss_list 1 3 2 (cut 2 2 (fun n m => INR (n + m))) (cut 2 2 (fun n m => INR (n * m))) ++ [])) (scalar 6400) (vec 0 [0; 45]) (scalar 10) 1 3 2 Internal = Ok F /\ f_sh F = [2%nat]) by accepted.
  destruct H1 as (F1 & E1 & _), H2 as (F2 & E2 & _). exists F1, F2. split; [exact E1|]. split; [exact E2|]. cbn. lra.
Qed.
Example C29_applies : (exists t, In t (elems (vec 0 [30; 190])) /\ (t < 0 \/ 180 < t)) /\
  ~ In 0 (elems (vec 0 [30; 190])) /\ ~ In 180 (elems (vec 0 [30; 190])).
Proof. rewrite elems_vec. split; [exists 190; cbn; split; [tauto|lra]|]. cbn. split; intros [H|[H|[]]]; lra. Qed.
(** C31: eight coefficients, the sectoral and tesseral ones zero *)
Example C31_applies : let l := [-29442; 0; 0; -2445; 0; 0; 0; 0] in let g := fun n m => match m with 0%nat => reading l n 0 | _ => 0 end in
  crow (cvec l) [0%nat] = (gauss_list 1 2 2 g (fun _ _ => 0%R) ++ [])%list /\ (forall n m, (1 <= m)%nat -> g n m = 0 /\ 0 = 0).
Proof. intros l g. split; [reflexivity|]. intros n [|m] H; [lia|]. split; reflexivity. Qed.
Example C32_applies : (forall g h, cdim (cvec coeffs8) < List.length (gauss_list 1 3 3 g h))%nat /\
  exists e, broadcast [sh (vec 0 [6400; 6500]); sh (vec 0 [10; 20; 30]); []; []] = Err e.
Proof. split; [intros g h; cbn; lia|]. eexists. reflexivity. Qed.

Print Assumptions C18_synthesis_reads_documented_positions.
Print Assumptions C18_every_position_is_used.
Print Assumptions C18_positions_are_distinct.
Print Assumptions C19_design_columns_are_the_coefficients_needed.
Print Assumptions C19_degree_inferred_from_the_number_of_coefficients.
Print Assumptions C19_degree_inferred_for_given_order.
Print Assumptions C19_defaults.
Print Assumptions C24_synthesis_is_design_matrix_times_coefficients.
Print Assumptions C25_field_is_minus_gradient_of_potential.
Print Assumptions C25_valid_input_succeeds.
Print Assumptions C26_linear.
Print Assumptions C27_pole_values_are_meridional_limits.
Print Assumptions C28_degree_range_is_zero_padding.
Print Assumptions C29_colatitudes_outside_rejected_refuted.
Print Assumptions C29_colatitudes_outside_rejected_partial.
Print Assumptions C29_scalar_colatitude_outside_rejected.
Print Assumptions C30_each_element_is_the_scalar_evaluation.
Print Assumptions C30_grid_is_the_outer_product.
Print Assumptions C31_longitude_periodicity.
Print Assumptions C31_zonal_fields_do_not_depend_on_longitude.
Print Assumptions C32_unknown_source_raises.
Print Assumptions C32_empty_degree_range_raises.
Print Assumptions C32_too_few_coefficients_raises.
Print Assumptions C32_incompatible_shapes_raise.
Print Assumptions C32_no_points_raises.
Print Assumptions C72_field_is_divergence_free.
Print Assumptions C32_exceptions_for_degree_ranges.
Print Assumptions C32_unknown_source_is_a_ValueError_in_design_gauss.
Print Assumptions C32_unknown_source_is_a_ValueError.
Print Assumptions C32_exception_for_shapes.
