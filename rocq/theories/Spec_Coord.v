(** Specification vocabulary for the coordinate properties (C49-C61, C80...),
    written without reference to the model of coordinate_utils.py:
    vectors of R^3, directions given by colatitude and longitude in degrees,
    right-handed orthonormal triples. *)
From Coq Require Import Reals List String.
Import ListNotations.
Open Scope R_scope.

Record vec3 : Type := V3 { vx : R; vy : R; vz : R }.

Definition vdot (u v : vec3) : R := vx u * vx v + vy u * vy v + vz u * vz v.
Definition vadd (u v : vec3) : vec3 := V3 (vx u + vx v) (vy u + vy v) (vz u + vz v).
Definition vscale (k : R) (v : vec3) : vec3 := V3 (k * vx v) (k * vy v) (k * vz v).
Definition vlen (v : vec3) : R := sqrt (vdot v v).
(** the right-handed vector product *)
Definition vprod (u v : vec3) : vec3 :=
  V3 (vy u * vz v - vz u * vy v) (vz u * vx v - vx u * vz v) (vx u * vy v - vy u * vx v).

Definition unit_vec (v : vec3) : Prop := vdot v v = 1.
Definition zhat : vec3 := V3 0 0 1.
Definition vzero : vec3 := V3 0 0 0.

(** Three mutually orthogonal unit vectors with e1 x e2 = e3. *)
Definition right_handed_orthonormal (e1 e2 e3 : vec3) : Prop :=
  unit_vec e1 /\ unit_vec e2 /\ unit_vec e3 /\
  vdot e1 e2 = 0 /\ vdot e2 e3 = 0 /\ vdot e3 e1 = 0 /\
  vprod e1 e2 = e3.

(** Two vectors point along the same line through the origin. *)
Definition parallel (u v : vec3) : Prop := vprod u v = vzero.

(** Degrees to radians. *)
Definition deg (x : R) : R := x * (PI / 180).

(** Unit vector of colatitude theta and longitude phi (degrees), and the
    southward and eastward unit vectors there. *)
Definition direction (theta phi : R) : vec3 :=
  V3 (sin (deg theta) * cos (deg phi)) (sin (deg theta) * sin (deg phi)) (cos (deg theta)).
Definition south (theta phi : R) : vec3 :=
  V3 (cos (deg theta) * cos (deg phi)) (cos (deg theta) * sin (deg phi)) (- sin (deg theta)).
Definition east (phi : R) : vec3 := V3 (- sin (deg phi)) (cos (deg phi)) 0.

(** Components of v along three vectors. *)
Definition resolve (e1 e2 e3 v : vec3) : vec3 := V3 (vdot e1 v) (vdot e2 v) (vdot e3 v).

(** x and y differ by a whole number of periods p. *)
Definition congruent_mod (p x y : R) : Prop := exists k : Z, x = y + p * IZR k.

(** ** The three reference systems.
    [axis]: unit vector to the geomagnetic north pole; [sun]: unit vector to
    the sun.  Each definition determines the triple completely. *)

(** Geocentric solar magnetospheric: x to the sun, dipole axis in the x-z
    plane on the side of positive z. *)
Definition gsm_frame (axis sun e1 e2 e3 : vec3) : Prop :=
  right_handed_orthonormal e1 e2 e3 /\ e1 = sun /\ vdot axis e2 = 0 /\ 0 < vdot axis e3.

(** Solar magnetic: z along the dipole axis, sun in the x-z plane on the side
    of positive x. *)
Definition sm_frame (axis sun e1 e2 e3 : vec3) : Prop :=
  right_handed_orthonormal e1 e2 e3 /\ e3 = axis /\ vdot sun e2 = 0 /\ 0 < vdot sun e1.

(** Centred dipole (MAG): z along the dipole axis, y perpendicular to the
    rotation axis, which lies on the side of negative x. *)
Definition mag_frame (axis e1 e2 e3 : vec3) : Prop :=
  right_handed_orthonormal e1 e2 e3 /\ e3 = axis /\ vdot zhat e2 = 0 /\ vdot zhat e1 < 0.

Inductive ref_system : Type := GSM | SM | MAG.

Definition frame_of (k : ref_system) (axis sun e1 e2 e3 : vec3) : Prop :=
  match k with
  | GSM => gsm_frame axis sun e1 e2 e3
  | SM => sm_frame axis sun e1 e2 e3
  | MAG => mag_frame axis e1 e2 e3
  end.

(** The directions that define the system are not parallel. *)
Definition nondegenerate (k : ref_system) (axis sun : vec3) : Prop :=
  match k with
  | GSM | SM => ~ parallel axis sun
  | MAG => ~ parallel zhat axis
  end.

(** All spellings of the three names. *)
Definition spellings (k : ref_system) : list string :=
  (match k with
   | GSM => ["gsm"; "gsM"; "gSm"; "gSM"; "Gsm"; "GsM"; "GSm"; "GSM"]
   | SM => ["sm"; "sM"; "Sm"; "SM"]
   | MAG => ["mag"; "maG"; "mAg"; "mAG"; "Mag"; "MaG"; "MAg"; "MAG"]
   end)%string.

(** A tangential vector at a location, from its southward and eastward
    components, as a vector of R^3. *)
Definition tangent (theta phi B_theta B_phi : R) : vec3 :=
  vadd (vscale B_theta (south theta phi)) (vscale B_phi (east phi)).

(** ** The sun (low-precision formulas of C. T. Russell, Appendix 2), in
    degrees, without any reduction to a principal range.
    [t]: days since 2000-01-01T00:00. *)
Definition sun_days_1900 (t : R) : R := t + 36524.5.
Definition sun_mean_longitude (t : R) : R := 279.696678 + 0.9856473354 * sun_days_1900 t.
Definition sun_mean_anomaly (t : R) : R := 358.475845 + 0.985600267 * sun_days_1900 t.
Definition sun_ecliptic_longitude (t : R) : R :=
  sun_mean_longitude t
  + (1.91946 - 0.004789 * (sun_days_1900 t / 36525)) * sin (deg (sun_mean_anomaly t))
  + 0.020094 * sin (deg (2 * sun_mean_anomaly t)) - 0.005686.
Definition sun_obliquity (t : R) : R := 23.45229 - 0.0130125 * (sun_days_1900 t / 36525).
(** Greenwich sidereal angle *)
Definition sidereal_angle (t : R) : R := 279.690983 + 0.9856473354 * sun_days_1900 t + 360 * t + 180.

(** Rotation of coordinates about the z axis by an angle in degrees. *)
Definition rotate_z (g : R) (v : vec3) : vec3 :=
  V3 (cos (deg g) * vx v + sin (deg g) * vy v) (- sin (deg g) * vx v + cos (deg g) * vy v) (vz v).

(** Direction to the sun in the equatorial inertial system: a unit vector at
    longitude [lambda] in the ecliptic plane, which is inclined by [eps]. *)
Definition sun_equatorial (lambda eps : R) : vec3 :=
  V3 (cos (deg lambda)) (cos (deg eps) * sin (deg lambda)) (sin (deg eps) * sin (deg lambda)).

(** Direction to the sun in the Earth-fixed (geographic) system. *)
Definition sun_direction (t : R) : vec3 :=
  rotate_z (sidereal_angle t) (sun_equatorial (sun_ecliptic_longitude t) (sun_obliquity t)).

(** ** The ellipsoid, in the meridian plane (rho: distance from the axis). *)
Definition on_ellipse (a b rho z : R) : Prop := (rho / a) ^ 2 + (z / b) ^ 2 = 1.

(** (c, s) is the outward unit normal of the ellipse at (rho0, z0). *)
Definition outward_normal (a b rho0 z0 c s : R) : Prop :=
  c ^ 2 + s ^ 2 = 1 /\ exists k, 0 < k /\ rho0 / a ^ 2 = k * c /\ z0 / b ^ 2 = k * s.

(** (rho, z) has geodetic latitude alpha (degrees) and height h. *)
Definition geodetic_point (a b h alpha rho z : R) : Prop :=
  exists rho0 z0, on_ellipse a b rho0 z0 /\
    outward_normal a b rho0 z0 (cos (deg alpha)) (sin (deg alpha)) /\
    rho = rho0 + h * cos (deg alpha) /\ z = z0 + h * sin (deg alpha).
