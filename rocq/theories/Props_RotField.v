(** C147: rotated Gauss coefficients give the rotated field. *)
From Coq Require Import Reals List Arith ZArith Bool Lia Lra.
From Verif Require Import M_Prelude M_ND Spec_Field Spec_Analysis Spec_Coord Spec_RotField M_Coord M_Synth M_SynthArr M_Rotate M_Analysis P_Gauss2 W_Analysis P_RotField P_RotField2.
Import ListNotations.
Open Scope R_scope.

(** For coefficients [v] with respect to the axes [b], up to degree kmax: the field
    of the coefficients multiplied with the matrix of rotate_gauss at a point
    and the field of [v] at the coordinates of that point with respect to [b] are
    the same vector; also at the poles of either system. *)
Theorem C147_rotated_field : forall oob leggauss nmax kmax b M v L s a radius theta phi theta' phi' F F' x,
  gauss_legendre leggauss -> (1 <= nmax)%nat -> (1 <= kmax)%nat -> right_handed_axes b ->
  rotate_gauss oob leggauss nmax kmax [b] = Ok [M] -> List.length v = (kmax * (kmax + 2))%nat -> (1 <= L <= Nat.min nmax kmax)%nat ->
  let w := map (times (entry M) v) (seq 0 (nmax * (nmax + 2))) in
  synth_values oob a (cvec w) radius theta phi (Some 1%Z) (Some (Z.of_nat L)) (Some (Z.of_nat L)) (Some (src_name s)) false = Ok F ->
  synth_values oob a (cvec v) radius theta' phi' (Some 1%Z) (Some (Z.of_nat L)) (Some (Z.of_nat L)) (Some (src_name s)) false = Ok F' ->
  (forall t, In t (elems theta) -> 0 <= t <= 180) -> (forall t, In t (elems theta') -> 0 <= t <= 180) ->
  valid (f_sh F) x -> valid (f_sh F') x ->
  same_direction b (bread theta x) (bread phi x) (bread theta' x) (bread phi' x) ->
  field_vector (bread theta' x) (bread phi' x) (f_r F' x) (f_t F' x) (f_p F' x) =
  (let '(e1, e2, e3) := b in resolve e1 e2 e3 (field_vector (bread theta x) (bread phi x) (f_r F x) (f_t F x) (f_p F x))).
Proof. exact rotated_field. Qed.
Print Assumptions C147_rotated_field.

(** At every point all of these calls succeed. *)
Theorem C147_rotated_field_at_a_point : forall oob leggauss nmax kmax b v L s a r theta phi,
  gauss_legendre leggauss -> (1 <= nmax)%nat -> (1 <= kmax)%nat -> right_handed_axes b ->
  List.length v = (kmax * (kmax + 2))%nat -> (1 <= L <= Nat.min nmax kmax)%nat -> 0 <= theta <= 180 ->
  exists M theta' phi' F F', rotate_gauss oob leggauss nmax kmax [b] = Ok [M] /\
    same_direction b theta phi theta' phi' /\ 0 <= theta' <= 180 /\ -180 < phi' <= 180 /\
    let w := map (times (entry M) v) (seq 0 (nmax * (nmax + 2))) in
    synth_values oob a (cvec w) (scalar r) (scalar theta) (scalar phi) (Some 1%Z) (Some (Z.of_nat L)) (Some (Z.of_nat L)) (Some (src_name s)) false = Ok F /\
    synth_values oob a (cvec v) (scalar r) (scalar theta') (scalar phi') (Some 1%Z) (Some (Z.of_nat L)) (Some (Z.of_nat L)) (Some (src_name s)) false = Ok F' /\
    field_vector theta' phi' (f_r F' []) (f_t F' []) (f_p F' []) =
    (let '(e1, e2, e3) := b in resolve e1 e2 e3 (field_vector theta phi (f_r F []) (f_t F []) (f_p F []))).
Proof. exact rotated_point. Qed.
Print Assumptions C147_rotated_field_at_a_point.

Example C147_applies : gauss_legendre standard_leggauss /\ right_handed_axes (V3 (3 / 5) (4 / 5) 0, V3 (- (4 / 5)) (3 / 5) 0, V3 0 0 1) /\
  List.length [1; 2; 3; 4; 5; 6; 7; 8] = (2 * (2 + 2))%nat /\ (1 <= 2 <= Nat.min 3 2)%nat.
Proof. split; [exact standard_rules|]. split; [apply axes_case|]. split; [reflexivity|cbn; lia]. Qed.
