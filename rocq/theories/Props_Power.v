(** The power spectrum and the degree correlation as averages of the
    synthesised field over a sphere (C113-C115). *)
From Coq Require Import Reals List Arith ZArith String Bool Lia Lra.
From Coquelicot Require Import Coquelicot.
From Verif Require Import M_Prelude M_ND Spec_Legendre Spec_Field Spec_Power M_Synth M_SynthArr M_Spectrum P_Power P_Power2 P_Power3.
Import ListNotations.
Open Scope R_scope.

(** [call oob a l r nmin nmax s t p]: field of the coefficients l of degrees
    nmin to nmax at radius r, colatitude t and longitude p (radians, converted
    to the degrees the function takes). *)
Definition call (oob a : R) (l : list R) (r : R) (nmin nmax : nat) (s : src) (t p : R) : result field :=
  synth_values oob a (cvec l) (scalar r) (scalar (deg t)) (scalar (deg p))
    (Some (Z.of_nat nmin)) (Some (Z.of_nat nmax)) (Some (Z.of_nat nmax)) (Some (src_name s)) false.

(** A mean is unique. *)
Theorem C113_mean_is_unique : forall f v w, sphere_mean f v -> sphere_mean f w -> v = w.
Proof. exact sphere_mean_unique. Qed.

(** ** C113 *)
Theorem C113_spectrum_is_the_mean_square_of_each_degree : forall oob a l r s N W n,
  0 < a -> 0 < r -> List.length l = (N * (N + 2))%nat ->
  power_spectrum a (vec 0 l) (Some r) None (Some (src_name s)) None = Ok W -> (1 <= n <= N)%nat ->
  exists F : R -> R -> field,
    (forall t p, 0 <= t <= PI -> call oob a (degree_block l n) r n n s t p = Ok (F t p)) /\
    sphere_mean (fun t p => f_r (F t p) [] ^ 2 + f_t (F t p) [] ^ 2 + f_p (F t p) [] ^ 2) (at_ W [(n - 1)%nat]).
Proof. exact C113_degree. Qed.

Theorem C113_mean_square_of_the_field_is_the_sum_of_the_spectrum : forall oob a l r s N W,
  0 < a -> 0 < r -> (1 <= N)%nat -> List.length l = (N * (N + 2))%nat ->
  power_spectrum a (vec 0 l) (Some r) None (Some (src_name s)) None = Ok W ->
  exists F : R -> R -> field,
    (forall t p, 0 <= t <= PI -> call oob a l r 1 N s t p = Ok (F t p)) /\
    sphere_mean (fun t p => f_r (F t p) [] ^ 2 + f_t (F t p) [] ^ 2 + f_p (F t p) [] ^ 2)
      (Rsum (map (fun n => at_ W [(n - 1)%nat]) (range_incl 1 N))).
Proof. exact C113_total. Qed.

(** ** C114 *)
Theorem C114_toroidal_spectrum_is_the_mean_square : forall a l r N W Bt Bp,
  0 < a -> 0 < r -> List.length l = (N * (N + 2))%nat ->
  power_spectrum a (vec 0 l) (Some r) None (Some "toroidal"%string) None = Ok W ->
  (forall t p, 0 < t < PI -> is_derive (fun x => toroidal_scalar l N t x) p (sin t * Bt t p)) ->
  (forall t p, 0 < t < PI -> is_derive (fun x => toroidal_scalar l N x p) t (- Bp t p)) ->
  sphere_mean (fun t p => Bt t p ^ 2 + Bp t p ^ 2) (Rsum (map (fun n => at_ W [(n - 1)%nat]) (range_incl 1 N))).
Proof. exact C114_toroidal. Qed.

(** The three parts of a field add up: there are no cross terms. *)
Theorem C114_internal_external_and_toroidal_spectra_add : forall oob a li le lt r Ni Ne Nt Wi We Wt Bt Bp,
  0 < a -> 0 < r -> (1 <= Ni)%nat -> (1 <= Ne)%nat ->
  List.length li = (Ni * (Ni + 2))%nat -> List.length le = (Ne * (Ne + 2))%nat -> List.length lt = (Nt * (Nt + 2))%nat ->
  power_spectrum a (vec 0 li) (Some r) None (Some "internal"%string) None = Ok Wi ->
  power_spectrum a (vec 0 le) (Some r) None (Some "external"%string) None = Ok We ->
  power_spectrum a (vec 0 lt) (Some r) None (Some "toroidal"%string) None = Ok Wt ->
  (forall t p, 0 < t < PI -> is_derive (fun x => toroidal_scalar lt Nt t x) p (sin t * Bt t p)) ->
  (forall t p, 0 < t < PI -> is_derive (fun x => toroidal_scalar lt Nt x p) t (- Bp t p)) ->
  exists Fi Fe : R -> R -> field,
    (forall t p, 0 <= t <= PI -> call oob a li r 1 Ni Internal t p = Ok (Fi t p)) /\
    (forall t p, 0 <= t <= PI -> call oob a le r 1 Ne External t p = Ok (Fe t p)) /\
    sphere_mean (fun t p => (f_r (Fi t p) [] + f_r (Fe t p) []) ^ 2
                            + (f_t (Fi t p) [] + f_t (Fe t p) [] + Bt t p) ^ 2
                            + (f_p (Fi t p) [] + f_p (Fe t p) [] + Bp t p) ^ 2)
      (Rsum (map (fun n => at_ Wi [(n - 1)%nat]) (range_incl 1 Ni)) +
       Rsum (map (fun n => at_ We [(n - 1)%nat]) (range_incl 1 Ne)) +
       Rsum (map (fun n => at_ Wt [(n - 1)%nat]) (range_incl 1 Nt))).
Proof. exact C114_all. Qed.

(** Toroidal components exist for all coefficients. *)
Theorem C114_toroidal_fields_exist : forall l N, exists Bt Bp : R -> R -> R,
  (forall t p, 0 < t < PI -> is_derive (fun x => toroidal_scalar l N t x) p (sin t * Bt t p)) /\
  (forall t p, 0 < t < PI -> is_derive (fun x => toroidal_scalar l N x p) t (- Bp t p)).
Proof. exact toroidal_exists. Qed.

(** ** C115 *)
(** The degree correlation is the correlation over any sphere of the two
    fields of that degree, whichever side the sources are on. *)
Theorem C115_degree_correlation_is_the_correlation_of_the_fields : forall oob a l1 l2 N v n s r,
  0 < a -> 0 < r -> List.length l1 = (N * (N + 2))%nat -> List.length l2 = (N * (N + 2))%nat ->
  degree_correlation (vec 0 l1) (vec 0 l2) = Ok v -> (1 <= n <= N)%nat ->
  ~ degree_vanishes l1 n -> ~ degree_vanishes l2 n ->
  exists (F1 F2 : R -> R -> field) c12 c11 c22,
    (forall t p, 0 <= t <= PI -> call oob a (degree_block l1 n) r n n s t p = Ok (F1 t p)) /\
    (forall t p, 0 <= t <= PI -> call oob a (degree_block l2 n) r n n s t p = Ok (F2 t p)) /\
    sphere_mean (fun t p => f_r (F1 t p) [] * f_r (F2 t p) [] + f_t (F1 t p) [] * f_t (F2 t p) [] + f_p (F1 t p) [] * f_p (F2 t p) []) c12 /\
    sphere_mean (fun t p => f_r (F1 t p) [] ^ 2 + f_t (F1 t p) [] ^ 2 + f_p (F1 t p) [] ^ 2) c11 /\
    sphere_mean (fun t p => f_r (F2 t p) [] ^ 2 + f_t (F2 t p) [] ^ 2 + f_p (F2 t p) [] ^ 2) c22 /\
    0 < c11 /\ 0 < c22 /\ nth (n - 1) v NaN = Fin (c12 / (sqrt c11 * sqrt c22)).
Proof. exact C115_correlation. Qed.

(** ** Hypotheses are met *)
Example C113_C114_spectrum_defined : exists W, power_spectrum 6371.2 (vec 0 [1; 2; 3; 4; 5; 6; 7; 8]) (Some 3485) None (Some (src_name Internal)) None = Ok W.
Proof. eexists. reflexivity. Qed.
Example C115_block_two : degree_block [1; 2; 3; 4; 5; 6; 7; 8] 2 = [4; 5; 6; 7; 8].
Proof. reflexivity. Qed.
Example C115_correlation_defined : exists v, degree_correlation (vec 0 [1; 2; 3]) (vec 0 [3; 2; 1]) = Ok v.
Proof. eexists. reflexivity. Qed.
(** For the axial dipole the mean square is 2 (a/r)^6 g^2. *)
Example C113_dipole_mean oob : exists F : R -> R -> field,
    (forall t p, 0 <= t <= PI -> call oob 1 [5; 0; 0] 2 1 1 Internal t p = Ok (F t p)) /\
    sphere_mean (fun t p => f_r (F t p) [] ^ 2 + f_t (F t p) [] ^ 2 + f_p (F t p) [] ^ 2) (50 / 64).
Proof. exact (dipole_case oob). Qed.

Print Assumptions C113_mean_is_unique.
Print Assumptions C113_spectrum_is_the_mean_square_of_each_degree.
Print Assumptions C113_mean_square_of_the_field_is_the_sum_of_the_spectrum.
Print Assumptions C114_toroidal_spectrum_is_the_mean_square.
Print Assumptions C114_internal_external_and_toroidal_spectra_add.
Print Assumptions C114_toroidal_fields_exist.
Print Assumptions C115_degree_correlation_is_the_correlation_of_the_fields.
