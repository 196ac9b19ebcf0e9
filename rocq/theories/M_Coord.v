(** Model of chaosmagpy/coordinate_utils.py: dipole handling (81-202), sun
    position and zenith angle (729-827), Cartesian/spherical conversion
    (830-881), geodetic conversion (884-1101), base vectors (1104-1299),
    rotation of points and vectors (1302-1588), azimuth and local time
    (1591-1637).

    Simplifications, common to the whole file:
    - exact real arithmetic; division by zero, NaN, infinities, signed zeros
      and rounding are not modelled (np.arccos outside [-1, 1] would be NaN,
      but exact arguments never leave that interval);
    - arrays are lists of already broadcast elements, all of one common
      length; checks made on whole arrays (np.all, np.amin, np.amax) are
      modelled on the whole list;
    - a dipole is one triple, not one triple per time. *)
From Coq Require Import Reals List Bool String Ascii ZArith.
From Verif Require Import M_Prelude Spec_Coord.
Import ListNotations.
Open Scope R_scope.

(** ** NumPy primitives *)

(** np.radians, np.degrees *)
Definition np_radians (x : R) : R := x * (PI / 180).
Definition np_degrees (x : R) : R := x * (180 / PI).

(** floor: greatest integer below x, as used by // and % *)
Definition np_floor (x : R) : R := IZR (Int_part x).

(** np.remainder(x, m), and x % m for m > 0 *)
Definition np_remainder (x m : R) : R := x - m * np_floor (x / m).

(** np.arctan2(y, x); at the origin NumPy returns 0 for (+0, +0). *)
Definition np_arctan2 (y x : R) : R :=
  if Rlt_dec 0 x then atan (y / x)
  else if Rlt_dec x 0 then
    if Rle_dec 0 y then atan (y / x) + PI else atan (y / x) - PI
  else if Rlt_dec 0 y then PI / 2
  else if Rlt_dec y 0 then - (PI / 2)
  else 0.

(** np.cross over the last dimension *)
Definition np_cross (a b : vec3) : vec3 :=
  V3 (vy a * vz b - vz a * vy b) (vz a * vx b - vx a * vz b) (vx a * vy b - vy a * vx b).

(** np.linalg.norm over the last dimension *)
Definition np_norm (v : vec3) : R := sqrt (vx v * vx v + vy v * vy v + vz v * vz v).

Definition np_divs (v : vec3) (k : R) : vec3 := V3 (vx v / k) (vy v / k) (vz v / k).
Definition np_neg (v : vec3) : vec3 := V3 (- vx v) (- vy v) (- vz v).

(** np.amin, np.amax; both raise ValueError on an empty array *)
Definition np_amin (l : list R) : result R :=
  match l with [] => Err ValueError | x :: r => Ok (fold_left Rmin r x) end.
Definition np_amax (l : list R) : result R :=
  match l with [] => Err ValueError | x :: r => Ok (fold_left Rmax r x) end.

(** str.lower on ASCII letters (other characters are left alone; Python also
    lowers non-ASCII letters). *)
Definition lower_char (c : ascii) : ascii :=
  let n := nat_of_ascii c in
  if (Nat.leb 65 n && Nat.leb n 90)%bool then ascii_of_nat (n + 32) else c.
Fixpoint lower (s : string) : string :=
  match s with EmptyString => EmptyString | String c r => String (lower_char c) (lower r) end.

(** str(reference) of an optional argument: str(None) = 'None'. *)
Definition str_opt (s : option string) : string :=
  match s with Some s => s | None => "None"%string end.

(** ** Dipole, lines 81-202 *)

(** The argument [dipole] of [dipole_to_vec]: missing, one array
    [g10, g11, h11], or a tuple/list of scalars. *)
Inductive dipole_arg : Type :=
| DNone
| DArray (g10 g11 h11 : R)
| DTuple (l : list R).

(** _dipole_to_unit with one array argument, lines 140-144: roll by -1, then
    negate and normalise. *)
Definition unit_of_coeffs (g10 g11 h11 : R) : vec3 :=
  let vector := V3 g11 h11 g10 in
  np_divs (np_neg vector) (np_norm vector).

(** _dipole_to_unit with two arguments, lines 146-152 *)
Definition unit_of_pole (theta phi : R) : vec3 :=
  let theta := np_radians theta in
  let phi := np_radians phi in
  V3 (sin theta * cos phi) (sin theta * sin phi) (cos theta).

(** _dipole_to_unit, lines 120-165; a single scalar cannot be rolled along
    its last axis (numpy AxisError, a ValueError). *)
Definition dipole_to_unit_tuple (l : list R) : result vec3 :=
  match l with
  | [theta; phi] => Ok (unit_of_pole theta phi)
  | [g10; g11; h11] =>
      let vector := V3 g11 h11 g10 in
      Ok (np_divs (np_neg vector) (np_norm vector))
  | _ => Err ValueError
  end.

(** dipole_to_vec, lines 168-202; [cfg] is basicConfig['params.dipole'],
    an array [g10, g11, h11]. *)
Definition dipole_to_vec (cfg : R * R * R) (dipole : dipole_arg) : result vec3 :=
  match dipole with
  | DNone => let '(g10, g11, h11) := cfg in Ok (unit_of_coeffs g10 g11 h11)
  | DTuple l => dipole_to_unit_tuple l
  | DArray g10 g11 h11 => Ok (unit_of_coeffs g10 g11 h11)
  end.

(** igrf_dipole, lines 81-117 *)
Definition igrf_dipole (epoch : option string) : result vec3 :=
  let epoch := match epoch with None => "2015"%string | Some e => e end in
  if String.eqb epoch "2015" then Ok (unit_of_coeffs (-29442) (-1501) (47971 / 10))
  else if String.eqb epoch "2010" then Ok (unit_of_pole (1132 / 100) (28959 / 100))
  else Err ValueError.

(** ** Azimuth and local time, lines 1591-1637 *)

(** center_azimuth, lines 1591-1615 *)
Definition center_azimuth (phi : R) : R :=
  let phi := np_remainder phi 360 in
  if Rlt_dec 180 phi then phi - 360 else phi.

(** local_time, lines 1618-1637 *)
Definition local_time (time phi : R) : R := np_remainder (time + phi / 360) 1 * 24.

(** ** Sun, lines 729-827 *)

(** julian_date of line 765: 365*(2000-1900) + (2000-1901)//4 + time + 0.5 *)
Definition julian_date (time : R) : R := 365 * 100 + 24 + time + 1 / 2.

(** Ecliptic longitude [slp] in degrees, lines 765-773 *)
Definition sun_slp (time : R) : R :=
  let julian_date := julian_date time in
  let rad := PI / 180 in
  let t := julian_date / 36525 in
  let v := np_remainder (279.696678 + 0.9856473354 * julian_date) 360 in
  let g := np_remainder (358.475845 + 0.985600267 * julian_date) 360 in
  let slong := v + (1.91946 - 0.004789 * t) * sin (g * rad) + 0.020094 * sin (2 * g * rad) in
  slong - 0.005686.

(** Obliquity [obliq] in degrees, line 772 *)
Definition sun_obliq (time : R) : R := 23.45229 - 0.0130125 * (julian_date time / 36525).

(** Greenwich mean sidereal time [gmst] in radians, lines 764, 786-787 *)
Definition sun_gmst (time : R) : R :=
  let frac_day := np_remainder time 1 in
  np_remainder (279.690983 + 0.9856473354 * julian_date time + 360 * frac_day + 180) 360 * (PI / 180).

(** Declination and right ascension in radians, lines 775-783 *)
Definition sun_decl_ra (slp obliq : R) : R * R :=
  let rad := PI / 180 in
  let sind := sin (obliq * rad) * sin (slp * rad) in
  let cosd := sqrt (1 - sind ^ 2) in
  let declination := atan (sind / cosd) in
  let right_ascension :=
    PI - np_arctan2 (sind / (cosd * tan (obliq * rad))) (- cos (slp * rad) / cosd) in
  (declination, right_ascension).

(** The elementwise part of sun_position, lines 764-792 *)
Definition sun_point (time : R) : R * R :=
  let '(declination, right_ascension) := sun_decl_ra (sun_slp time) (sun_obliq time) in
  let theta := np_degrees (PI / 2 - declination) in
  let phi := center_azimuth (np_degrees (right_ascension - sun_gmst time)) in
  (theta, phi).

(** The assertion of lines 760-762, for one element *)
Definition sun_check (time : R) : bool :=
  let q := np_floor (time / 365.25) in
  (if Rlt_dec (2000 + q) 2099 then true else false)
  && (if Rlt_dec 1901 (2000 - q) then true else false).

(** sun_position, lines 729-792 *)
Definition sun_position (time : list R) : result (list (R * R)) :=
  if forallb sun_check time then Ok (map sun_point time) else Err AssertionError.

(** The elementwise part of zenith_angle, lines 817-827 *)
Definition zenith_point (theta_sun phi_sun theta phi : R) : R :=
  let colat := np_radians theta_sun in
  let azim := np_radians phi_sun in
  let theta := np_radians theta in
  let phi := np_radians phi in
  let cos_zeta := cos theta * cos colat + sin theta * sin colat * cos (azim - phi) in
  np_degrees (acos cos_zeta).

(** zenith_angle, lines 795-827; elements (time, theta, phi) *)
Definition zenith_angle (pts : list (R * R * R)) : result (list R) :=
  bind (sun_position (map (fun p => fst (fst p)) pts)) (fun sun =>
  Ok (map (fun sp => let '((ts, ps), ((_, th), ph)) := sp in zenith_point ts ps th ph)
          (combine sun pts))).

(** ** Cartesian and spherical coordinates, lines 830-881 *)

(** spherical_to_cartesian, lines 830-856 *)
Definition spherical_to_cartesian (radius theta phi : R) : vec3 :=
  let theta := np_radians theta in
  let phi := np_radians phi in
  V3 (radius * cos phi * sin theta) (radius * sin phi * sin theta) (radius * cos theta).

(** cartesian_to_spherical, lines 859-881 *)
Definition cartesian_to_spherical (v : vec3) : R * R * R :=
  let x := vx v in let y := vy v in let z := vz v in
  let radius := sqrt (x ^ 2 + y ^ 2 + z ^ 2) in
  let theta := np_arctan2 (sqrt (x ^ 2 + y ^ 2)) z in
  let phi := np_arctan2 y x in
  (radius, np_degrees theta, np_degrees phi).

(** ** Geodetic coordinates, lines 884-1101 *)

(** basevectors_gg, lines 1065-1101 (elementwise; gg_2 = (0, 0, 1)) *)
Definition basevectors_gg (theta beta : R) : vec3 * vec3 * vec3 :=
  let psi := np_radians (theta - beta) in
  (V3 (- sin psi) (- cos psi) 0, V3 0 0 1, V3 (- cos psi) (sin psi) 0).

(** gg_to_geo without components, lines 927-942; [a], [b] are
    basicConfig['params.ellipsoid'] *)
Definition gg_to_geo (a b height beta : R) : R * R :=
  let alpha := np_radians (90 - beta) in
  let sin_alpha_2 := sin alpha ^ 2 in
  let cos_alpha_2 := cos alpha ^ 2 in
  let factor := height * sqrt (a ^ 2 * cos_alpha_2 + b ^ 2 * sin_alpha_2) in
  let gamma := np_arctan2 ((factor + b ^ 2) * tan alpha) (factor + a ^ 2) in
  let theta := 90 - np_degrees gamma in
  let radius := sqrt (height ^ 2 + 2 * factor +
                      a ^ 2 * (1 - (1 - (b / a) ^ 4) * sin_alpha_2) /
                      (1 - (1 - (b / a) ^ 2) * sin_alpha_2)) in
  (radius, theta).

(** gg_to_geo with components, lines 944-953: (radius, theta, B_radius, B_theta) *)
Definition gg_to_geo_vec (a b height beta X Z : R) : R * R * R * R :=
  let '(radius, theta) := gg_to_geo a b height beta in
  let '(gg_1, _, gg_3) := basevectors_gg theta beta in
  (radius, theta, vx gg_1 * X + vx gg_3 * Z, vy gg_1 * X + vy gg_3 * Z).

(** geo_to_gg without components, lines 1009-1048.  The cube root
    [( ... )**(1./3)] is Rpower, which is the real power for positive base. *)
Definition geo_to_gg (a b radius theta : R) : R * R :=
  let a2 := a ^ 2 in
  let b2 := b ^ 2 in
  let e2 := (a2 - b2) / a2 in
  let e4 := e2 * e2 in
  let ep2 := (a2 - b2) / b2 in
  let r := radius * sin (np_radians theta) in
  let z := radius * cos (np_radians theta) in
  let r2 := r ^ 2 in
  let z2 := z ^ 2 in
  let F := 54 * b2 * z2 in
  let G := r2 + (1 - e2) * z2 - e2 * (a2 - b2) in
  let c := e4 * F * r2 / G ^ 3 in
  let s := Rpower (1 + c + sqrt (c ^ 2 + 2 * c)) (1 / 3) in
  let P := F / (3 * (s + 1 / s + 1) ^ 2 * G ^ 2) in
  let Q := sqrt (1 + 2 * e4 * P) in
  let r0 := - P * e2 * r / (1 + Q) +
            sqrt (0.5 * a2 * (1 + 1 / Q) - P * (1 - e2) * z2 / (Q * (1 + Q)) - 0.5 * P * r2) in
  let U := sqrt ((r - e2 * r0) ^ 2 + z2) in
  let V := sqrt ((r - e2 * r0) ^ 2 + (1 - e2) * z2) in
  let z0 := b2 * z / (a * V) in
  let height := U * (1 - b2 / (a * V)) in
  let beta := 90 - np_degrees (np_arctan2 (z + ep2 * z0) r) in
  (height, beta).

(** geo_to_gg with components, lines 1050-1059: (height, beta, X, Z) *)
Definition geo_to_gg_vec (a b radius theta B_radius B_theta : R) : R * R * R * R :=
  let '(height, beta) := geo_to_gg a b radius theta in
  let '(gg_1, _, gg_3) := basevectors_gg theta beta in
  (height, beta, vx gg_1 * B_radius + vy gg_1 * B_theta, vx gg_3 * B_radius + vy gg_3 * B_theta).

(** ** Base vectors, lines 1104-1299 *)

Definition base := (vec3 * vec3 * vec3)%type.

(** basevectors_gsm after the sun position is known, lines 1129-1154 *)
Definition gsm_base (vec : vec3) (sun : R * R) : base :=
  let gsm_1 := spherical_to_cartesian 1 (fst sun) (snd sun) in
  let gsm_2 := np_cross vec gsm_1 in
  let gsm_2 := np_divs gsm_2 (np_norm gsm_2) in
  let gsm_3 := np_cross gsm_1 gsm_2 in
  (gsm_1, gsm_2, gsm_3).

(** basevectors_gsm, lines 1104-1154: dipole first, then the sun *)
Definition basevectors_gsm (cfg : R * R * R) (time : list R) (dipole : dipole_arg) : result (list base) :=
  bind (dipole_to_vec cfg dipole) (fun vec =>
  bind (sun_position time) (fun sun => Ok (map (gsm_base vec) sun))).

(** basevectors_sm after the sun position is known, lines 1182-1210 *)
Definition sm_base (vec : vec3) (sun : R * R) : base :=
  let s := spherical_to_cartesian 1 (fst sun) (snd sun) in
  let sm_3 := vec in
  let sm_2 := np_cross sm_3 s in
  let sm_2 := np_divs sm_2 (np_norm sm_2) in
  let sm_1 := np_cross sm_2 sm_3 in
  (sm_1, sm_2, sm_3).

(** basevectors_sm, lines 1157-1210 *)
Definition basevectors_sm (cfg : R * R * R) (time : list R) (dipole : dipole_arg) : result (list base) :=
  bind (dipole_to_vec cfg dipole) (fun vec =>
  bind (sun_position time) (fun sun => Ok (map (sm_base vec) sun))).

(** basevectors_mag, lines 1213-1242 *)
Definition basevectors_mag (cfg : R * R * R) (dipole : dipole_arg) : result base :=
  bind (dipole_to_vec cfg dipole) (fun mag_3 =>
  let mag_2 := np_cross (V3 0 0 1) mag_3 in
  let mag_2 := np_divs mag_2 (np_norm mag_2) in
  let mag_1 := np_cross mag_2 mag_3 in
  Ok (mag_1, mag_2, mag_3)).

(** basevectors_use at one location, lines 1279-1299 *)
Definition use_base (theta phi : R) : base :=
  let theta := np_radians theta in
  let phi := np_radians phi in
  let sin_phi := sin phi in
  let sin_theta := sin theta in
  let cos_phi := cos phi in
  let cos_theta := cos theta in
  (V3 (sin_theta * cos_phi) (sin_theta * sin_phi) cos_theta,
   V3 (cos_theta * cos_phi) (cos_theta * sin_phi) (- sin_theta),
   V3 (- sin_phi) cos_phi 0).

(** basevectors_use, lines 1245-1299; elements (theta, phi).  The check of
    line 1267 is on the extrema of the whole array. *)
Definition basevectors_use (pts : list (R * R)) : result (list base) :=
  let thetas := map (fun p => np_radians (fst p)) pts in
  bind (np_amin thetas) (fun mn =>
  if Req_EM_T mn 0 then Err ValueError else
  bind (np_amax thetas) (fun mx =>
  if Req_EM_T mx PI then Err ValueError else
  Ok (map (fun p => use_base (fst p) (snd p)) pts))).

(** ** Rotation of points and vectors, lines 1302-1588 *)

(** geo_to_base, lines 1302-1354, at one location *)
Definition geo_to_base (theta phi : R) (b : base) (inverse : bool) : R * R :=
  let '(base_1, base_2, base_3) := b in
  let p := spherical_to_cartesian 1 theta phi in
  let x := vx p in let y := vy p in let z := vz p in
  let ref :=
    if inverse then
      V3 (vx base_1 * x + vx base_2 * y + vx base_3 * z)
         (vy base_1 * x + vy base_2 * y + vy base_3 * z)
         (vz base_1 * x + vz base_2 * y + vz base_3 * z)
    else
      V3 (vx base_1 * x + vy base_1 * y + vz base_1 * z)
         (vx base_2 * x + vy base_2 * y + vz base_2 * z)
         (vx base_3 * x + vy base_3 * y + vz base_3 * z) in
  let '(_, theta_ref, phi_ref) := cartesian_to_spherical ref in
  (theta_ref, phi_ref).

(** The choice of base vectors shared by transform_points (1401-1421) and
    transform_vectors (1556-1578), for [n] broadcast elements; [time = None]
    fails inside sun_position (None // 365.25).  Arrays that do not broadcast
    (here: lengths that differ) raise ValueError. *)
Definition reference_bases (cfg : R * R * R) (n : nat) (time : option (list R))
    (reference : option string) (dipole : dipole_arg) : result (list base) :=
  let reference := lower (str_opt reference) in
  let dipole := match dipole with DNone => let '(g, h, k) := cfg in DArray g h k | d => d end in
  let timed (f : list R -> result (list base)) :=
    match time with
    | None => bind (dipole_to_vec cfg dipole) (fun _ => Err TypeError)
    | Some t => bind (f t) (fun bs => if Nat.eqb (List.length t) n then Ok bs else Err ValueError)
    end in
  if String.eqb reference "gsm" then timed (fun t => basevectors_gsm cfg t dipole)
  else if String.eqb reference "sm" then timed (fun t => basevectors_sm cfg t dipole)
  else if String.eqb reference "mag" then
    bind (basevectors_mag cfg dipole) (fun b => Ok (repeat b n))
  else Err ValueError.

(** transform_points, lines 1357-1430; elements (theta, phi) *)
Definition transform_points (cfg : R * R * R) (pts : list (R * R)) (time : option (list R))
    (reference : option string) (inverse : option bool) (dipole : dipole_arg)
    : result (list (R * R)) :=
  let inverse := match inverse with None => false | Some i => i end in
  bind (reference_bases cfg (List.length pts) time reference dipole) (fun bs =>
  Ok (map (fun pb => geo_to_base (fst (fst pb)) (snd (fst pb)) (snd pb) inverse) (combine pts bs))).

(** 3x3 matrices as three rows *)
Definition mat3 := (vec3 * vec3 * vec3)%type.
Definition rows_of (b : base) : mat3 := b.
Definition cols_of (b : base) : mat3 :=
  let '(u, v, w) := b in
  (V3 (vx u) (vx v) (vx w), V3 (vy u) (vy v) (vy w), V3 (vz u) (vz v) (vz w)).
Definition mat_apply (m : mat3) (v : vec3) : vec3 :=
  let '(r1, r2, r3) := m in V3 (vdot r1 v) (vdot r2 v) (vdot r3 v).
Definition transpose (m : mat3) : mat3 := cols_of m.
Definition matmul (m n : mat3) : mat3 :=
  let '(c1, c2, c3) := transpose n in
  transpose (mat_apply m c1, mat_apply m c2, mat_apply m c3).

(** matrix_geo_to_base, lines 1433-1500; elements (theta, phi) with bases *)
Definition matrix_geo_to_base (pts : list (R * R)) (bs : list base) (inverse : bool)
    : result (list (R * R * mat3)) :=
  let other := map (fun pb => geo_to_base (fst (fst pb)) (snd (fst pb)) (snd pb) inverse) (combine pts bs) in
  let geo := if inverse then other else pts in
  let ref := if inverse then pts else other in
  bind (basevectors_use geo) (fun use1 =>
  bind (basevectors_use ref) (fun use2 =>
  let R_ := map (fun q => let '((u1, b), u2) := q in
                  matmul (rows_of u2) (matmul (rows_of b) (cols_of u1)))
                (combine (combine use1 bs) use2) in
  if inverse then Ok (combine geo (map transpose R_)) else Ok (combine ref R_))).

(** transform_vectors, lines 1503-1588; elements ((theta, phi), (B_theta, B_phi)) *)
Definition transform_vectors (cfg : R * R * R) (pts : list ((R * R) * (R * R))) (time : option (list R))
    (reference : option string) (inverse : option bool) (dipole : dipole_arg)
    : result (list ((R * R) * (R * R))) :=
  let inverse := match inverse with None => false | Some i => i end in
  bind (reference_bases cfg (List.length pts) time reference dipole) (fun bs =>
  bind (matrix_geo_to_base (map fst pts) bs inverse) (fun ms =>
  Ok (map (fun pm =>
        let '(p, (loc, m)) := pm in
        let '(_, (B_theta, B_phi)) := p in
        let '(_, r2, r3) := m in
        (loc, (vy r2 * B_theta + vz r2 * B_phi, vy r3 * B_theta + vz r3 * B_phi)))
      (combine pts ms)))).
