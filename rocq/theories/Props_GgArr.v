(** Geodetic functions on arrays (C128).  One element of a result is compared
    with the call for that element alone (M_Coord), whose meaning is the
    subject of C57 and C58; NumPy arrays: M_ND. *)
From Coq Require Import Reals List.
From Verif Require Import M_Prelude M_ND Spec_Coord M_Coord M_CoordArr M_GgArr P_GgArr.
Import ListNotations.
Open Scope nat_scope.

(** ** C128 *)
Theorem C128_gg_to_geo_elementwise : forall a b height beta X Z,
  let res := gg_to_geo_nd a b height beta X Z in
  match broadcast [sh height; sh beta] with
  | Err _ => res = Err ValueError
  | Ok s => exists radius theta, sh radius = s /\ sh theta = s /\
      (forall i, valid s i -> gg_to_geo a b (bread height i) (bread beta i) = (at_ radius i, at_ theta i)) /\
      match X, Z with
      | Some X, Some Z =>
          match broadcast [sh height; sh beta; sh X; sh Z] with
          | Err _ => res = Err ValueError
          | Ok u => exists B_radius B_theta, res = Ok ((radius, theta), Some (B_radius, B_theta)) /\ sh B_radius = u /\ sh B_theta = u /\
              forall i, valid u i -> gg_to_geo_vec a b (bread height i) (bread beta i) (bread X i) (bread Z i) =
                (gg_to_geo a b (bread height i) (bread beta i), at_ B_radius i, at_ B_theta i)
          end
      | _, _ => res = Ok ((radius, theta), None)
      end
  end.
Proof. exact gg_to_geo_arrays. Qed.

Theorem C128_geo_to_gg_elementwise : forall a b radius theta B_radius B_theta,
  let res := geo_to_gg_nd a b radius theta B_radius B_theta in
  match broadcast [sh radius; sh theta] with
  | Err _ => res = Err ValueError
  | Ok s => exists height beta, sh height = s /\ sh beta = s /\
      (forall i, valid s i -> geo_to_gg a b (bread radius i) (bread theta i) = (at_ height i, at_ beta i)) /\
      match B_radius, B_theta with
      | Some Br, Some Bt =>
          match broadcast [sh radius; sh theta; sh Br; sh Bt] with
          | Err _ => res = Err ValueError
          | Ok u => exists X Z, res = Ok ((height, beta), Some (X, Z)) /\ sh X = u /\ sh Z = u /\
              forall i, valid u i -> geo_to_gg_vec a b (bread radius i) (bread theta i) (bread Br i) (bread Bt i) =
                (geo_to_gg a b (bread radius i) (bread theta i), at_ X i, at_ Z i)
          end
      | _, _ => res = Ok ((height, beta), None)
      end
  end.
Proof. exact geo_to_gg_arrays. Qed.

(** The base vectors alone: elementwise, in the broadcast shape. *)
Theorem C128_basevectors_gg_elementwise : forall theta beta,
  let '(g1, g2, g3) := basevectors_gg_nd (Ok theta) (Ok beta) in
  match broadcast [sh theta; sh beta] with
  | Err _ => g1 = Err ValueError /\ g2 = Err ValueError /\ g3 = Err ValueError
  | Ok s => exists gg_1 gg_2 gg_3, g1 = Ok gg_1 /\ g2 = Ok gg_2 /\ g3 = Ok gg_3 /\ sh gg_1 = s /\ sh gg_2 = s /\ sh gg_3 = s /\
      forall i, valid s i -> basevectors_gg (bread theta i) (bread beta i) = (at_ gg_1 i, at_ gg_2 i, at_ gg_3 i)
  end.
Proof. exact basevectors_gg_arrays. Qed.

(** A column of three colatitudes, a row of two heights, one component per
    height and one number: (3, 2). *)
Example C128_case : broadcast [[2]; [3; 1]] = Ok [3; 2] /\ broadcast [[2]; [3; 1]; [2]; []] = Ok [3; 2] /\
  valid [3; 2] [2; 1] /\ broadcast [[2]; [3]] = Err ValueError.
Proof. repeat split; repeat constructor. Qed.

Print Assumptions C128_gg_to_geo_elementwise.
Print Assumptions C128_geo_to_gg_elementwise.
Print Assumptions C128_basevectors_gg_elementwise.
