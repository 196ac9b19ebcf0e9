(** Array versions of the geodetic functions
    (chaosmagpy/coordinate_utils.py 884-1101): shapes and NumPy broadcasting
    of every operation.  Exact arithmetic as in M_Coord; [a], [b] are
    basicConfig['params.ellipsoid']; NaN results of numerical failures are not
    modelled. *)
From Coq Require Import Reals List Bool.
From Verif Require Import M_Prelude M_ND Spec_Coord M_Coord M_CoordArr.
Import ListNotations.
Open Scope R_scope.

Definition rmap {A B} (f : A -> B) (r : result (nd A)) : result (nd B) := bind r (fun a => Ok (map1 f a)).
Local Notation "x .+ y" := (rop2 Rplus x y) (at level 50, left associativity).
Local Notation "x .- y" := (rop2 Rminus x y) (at level 50, left associativity).
Local Notation "x .* y" := (rop2 Rmult x y) (at level 40, left associativity).
Local Notation "x ./ y" := (rop2 Rdiv x y) (at level 40, left associativity).

(** basevectors_gg, 1065-1101.  The three arrays are created with the shape of
    np.broadcast(theta, beta), which is that of psi, and filled component by
    component; gg_2 = (0, 0, 1) is constant. *)
Definition basevectors_gg_nd (theta beta : result (nd R)) : result (nd vec3) * result (nd vec3) * result (nd vec3) :=
  let psi := rmap np_radians (theta .- beta) in
  (rmap (fun psi => V3 (- sin psi) (- cos psi) 0) psi, rmap (fun _ => V3 0 0 1) psi, rmap (fun psi => V3 (- cos psi) (sin psi) 0) psi).

(** Two optional components are used only if both are given (945, 1051). *)
Definition both {A B} (x : option A) (y : option A) (f : A -> A -> result B) : result (option B) :=
  match x, y with Some x, Some y => bind (f x y) (fun r => Ok (Some r)) | _, _ => Ok None end.

(** gg_to_geo, 884-956: (radius, theta) and, if X and Z are given,
    (B_radius, B_theta). *)
Definition gg_to_geo_nd (a b : R) (height beta : nd R) (X Z : option (nd R)) : result ((nd R * nd R) * option (nd R * nd R)) :=
  let height := Ok height in
  let beta := Ok beta in
  let alpha := rmap (fun b => np_radians (90 - b)) beta in
  let sin_alpha_2 := rmap (fun x => sin x ^ 2) alpha in
  let cos_alpha_2 := rmap (fun x => cos x ^ 2) alpha in
  let factor := height .* rmap sqrt (rmap (Rmult (a ^ 2)) cos_alpha_2 .+ rmap (Rmult (b ^ 2)) sin_alpha_2) in
  let gamma := rop2 np_arctan2 (rmap (fun f => f + b ^ 2) factor .* rmap tan alpha) (rmap (fun f => f + a ^ 2) factor) in
  let theta := rmap (fun g => 90 - np_degrees g) gamma in
  let radius := rmap sqrt (rmap (fun h => h ^ 2) height .+ rmap (Rmult 2) factor .+
                           rmap (fun s => a ^ 2 * (1 - (1 - (b / a) ^ 4) * s)) sin_alpha_2 ./
                           rmap (fun s => 1 - (1 - (b / a) ^ 2) * s) sin_alpha_2) in
  bind radius (fun radius' => bind theta (fun theta' =>
  bind (both X Z (fun X Z =>
    let '(gg_1, _, gg_3) := basevectors_gg_nd theta beta in
    let X := Ok X in let Z := Ok Z in
    bind (rmap vx gg_1 .* X .+ rmap vx gg_3 .* Z) (fun B_radius =>
    bind (rmap vy gg_1 .* X .+ rmap vy gg_3 .* Z) (fun B_theta => Ok (B_radius, B_theta))))) (fun comp =>
  Ok ((radius', theta'), comp)))).

(** geo_to_gg, 959-1062: (height, beta) and, if both components are given,
    (X, Z). *)
Definition geo_to_gg_nd (a b : R) (radius theta : nd R) (B_radius B_theta : option (nd R)) : result ((nd R * nd R) * option (nd R * nd R)) :=
  let radius := Ok radius in
  let theta := Ok theta in
  let a2 := a ^ 2 in
  let b2 := b ^ 2 in
  let e2 := (a2 - b2) / a2 in
  let e4 := e2 * e2 in
  let ep2 := (a2 - b2) / b2 in
  let r := radius .* rmap (fun t => sin (np_radians t)) theta in
  let z := radius .* rmap (fun t => cos (np_radians t)) theta in
  let r2 := rmap (fun r => r ^ 2) r in
  let z2 := rmap (fun z => z ^ 2) z in
  let F := rmap (fun z2 => 54 * b2 * z2) z2 in
  let G := rmap (fun x => x - e2 * (a2 - b2)) (r2 .+ rmap (fun z2 => (1 - e2) * z2) z2) in
  let c := rmap (fun F => e4 * F) F .* r2 ./ rmap (fun G => G ^ 3) G in
  let s := rmap (fun x => Rpower x (1 / 3)) (rmap (Rplus 1) c .+ rmap sqrt (rmap (fun c => c ^ 2) c .+ rmap (Rmult 2) c)) in
  let P := F ./ (rmap (fun x => 3 * (x + 1) ^ 2) (s .+ rmap (fun s => 1 / s) s) .* rmap (fun G => G ^ 2) G) in
  let Q := rmap (fun P => sqrt (1 + 2 * e4 * P)) P in
  let r0 := rmap (fun P => - P * e2) P .* r ./ rmap (Rplus 1) Q .+
            rmap sqrt (rmap (fun Q => 0.5 * a2 * (1 + 1 / Q)) Q
                       .- rmap (fun P => P * (1 - e2)) P .* z2 ./ (Q .* rmap (Rplus 1) Q)
                       .- rmap (Rmult 0.5) P .* r2) in
  let d := rmap (fun x => x ^ 2) (r .- rmap (Rmult e2) r0) in
  let U := rmap sqrt (d .+ z2) in
  let V := rmap sqrt (d .+ rmap (fun z2 => (1 - e2) * z2) z2) in
  let z0 := rmap (Rmult b2) z ./ rmap (Rmult a) V in
  let height := U .* rmap (fun V => 1 - b2 / (a * V)) V in
  let beta := rmap (fun x => 90 - np_degrees x) (rop2 np_arctan2 (z .+ rmap (Rmult ep2) z0) r) in
  bind height (fun height' => bind beta (fun beta' =>
  bind (both B_radius B_theta (fun B_radius B_theta =>
    let '(gg_1, _, gg_3) := basevectors_gg_nd theta beta in
    let B_radius := Ok B_radius in let B_theta := Ok B_theta in
    bind (rmap vx gg_1 .* B_radius .+ rmap vy gg_1 .* B_theta) (fun X =>
    bind (rmap vx gg_3 .* B_radius .+ rmap vy gg_3 .* B_theta) (fun Z => Ok (X, Z))))) (fun comp =>
  Ok ((height', beta'), comp)))).
