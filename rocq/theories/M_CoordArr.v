(** Array versions of the coordinate transformations
    (chaosmagpy/coordinate_utils.py 120-202, 729-881, 1104-1588): shapes and
    NumPy broadcasting.  The arithmetic of one element is that of M_Coord.

    Simplifications: as in M_Coord (exact arithmetic, no signed zeros).
    Arrays of vectors have their trailing axis of length three built in: the
    shape of an [nd vec3] is the shape without it.  A dipole array whose last
    axis has another length, tuples of other lengths than two and three, and
    nested lists are not modelled. *)
From Coq Require Import Reals List Bool String Arith.
From Verif Require Import M_Prelude M_ND Spec_Coord M_Coord.
Import ListNotations.
Open Scope R_scope.

(** Element-wise function and element-wise arithmetic with broadcasting *)
Definition map1 {A B} (f : A -> B) (a : nd A) : nd B := mknd (sh a) (fun i => f (at_ a i)).
Definition op2 {A B C} (f : A -> B -> C) (a : nd A) (b : nd B) : result (nd C) :=
  bind (broadcast [sh a; sh b]) (fun s => Ok (mknd s (fun i => f (bread a i) (bread b i)))).
Definition rop2 {A B C} (f : A -> B -> C) (a : result (nd A)) (b : result (nd B)) : result (nd C) :=
  bind a (fun a => bind b (fun b => op2 f a b)).
(** np.stack([a, b, c], axis=-1 or -2): all shapes must be equal. *)
Definition same_shape (s t : list nat) : bool := if list_eq_dec Nat.eq_dec s t then true else false.
Definition stack3 {A B} (f : A -> A -> A -> B) (a b c : nd A) : result (nd B) :=
  if same_shape (sh b) (sh a) && same_shape (sh c) (sh a) then Ok (mknd (sh a) (fun i => f (at_ a i) (at_ b i) (at_ c i)))
  else Err ValueError.
(** target[...] = a, for a target of shape [s]: axes of length one in front
    are dropped if [a] has too many, the rest must broadcast into [s]. *)
Fixpoint strip (n : nat) (s : list nat) : list nat :=
  match s with
  | d :: s' => if (n <? List.length s)%nat && (d =? 1)%nat then strip n s' else s
  | [] => []
  end.
Definition assign {A} (s : list nat) (a : nd A) : result (nd A) :=
  match bshape s (strip (List.length s) (sh a)) with
  | Some t => if same_shape t s then Ok (mknd s (fun i => bread a i)) else Err ValueError
  | None => Err ValueError
  end.

(** The argument [dipole] (168-202): None, one array (..., 3), a tuple of two
    arrays (pole) or of three arrays (coefficients). *)
Inductive dipole_nd : Type :=
| NNone
| NArray (a : nd (R * R * R))
| NPole (theta phi : nd R)
| NCoeffs (g10 g11 h11 : nd R).
Definition unit3 (g : R * R * R) : vec3 := let '(g10, g11, h11) := g in unit_of_coeffs g10 g11 h11.
(** dipole_to_vec, 120-202.  Lines 150-152 stack sin(theta) cos(phi),
    sin(theta) sin(phi) and cos(theta), the last of the shape of theta. *)
Definition dipole_to_vec_nd (cfg : R * R * R) (dipole : dipole_nd) : result (nd vec3) :=
  match dipole with
  | NNone => Ok (scalar (unit3 cfg))
  | NArray a => Ok (map1 unit3 a)
  | NPole theta phi =>
      bind (op2 (fun t p => sin (np_radians t) * cos (np_radians p)) theta phi) (fun x =>
      bind (op2 (fun t p => sin (np_radians t) * sin (np_radians p)) theta phi) (fun y =>
      stack3 V3 x y (map1 (fun t => cos (np_radians t)) theta)))
  | NCoeffs g10 g11 h11 =>
      bind (stack3 V3 g11 h11 g10) (fun v => Ok (map1 (fun v => np_divs (np_neg v) (np_norm v)) v))
  end.

(** sun_position, 729-792 *)
Definition sun_position_nd (time : nd R) : result (nd (R * R)) :=
  if forallb sun_check (elems time) then Ok (map1 sun_point time) else Err AssertionError.
(** zenith_angle, 795-827 *)
Definition zenith_angle_nd (time theta phi : nd R) : result (nd R) :=
  bind (sun_position_nd time) (fun sun =>
  let colat := map1 (fun s => np_radians (fst s)) sun in
  let azim := map1 (fun s => np_radians (snd s)) sun in
  let theta := map1 np_radians theta in
  let phi := map1 np_radians phi in
  let a := op2 (fun t c => cos t * cos c) theta colat in
  let b := rop2 (fun u d => u * cos d) (op2 (fun t c => sin t * sin c) theta colat) (op2 (fun z p => z - p) azim phi) in
  bind (rop2 Rplus a b) (fun c => Ok (map1 (fun c => np_degrees (acos c)) c))).

Definition bases := (nd vec3 * nd vec3 * nd vec3)%type.
Definition sun_vec (s : R * R) : vec3 := spherical_to_cartesian 1 (fst s) (snd s).
Definition unit (v : vec3) : vec3 := np_divs v (np_norm v).
(** basevectors_gsm, 1104-1154 *)
Definition basevectors_gsm_nd (cfg : R * R * R) (time : nd R) (dipole : dipole_nd) : result bases :=
  bind (dipole_to_vec_nd cfg dipole) (fun vec =>
  bind (sun_position_nd time) (fun sun =>
  let gsm_1 := map1 sun_vec sun in
  bind (op2 np_cross vec gsm_1) (fun gsm_2 =>
  let gsm_2 := map1 unit gsm_2 in
  bind (op2 np_cross gsm_1 gsm_2) (fun gsm_3 =>
  Ok (gsm_1, gsm_2, gsm_3))))).
(** basevectors_sm, 1157-1210 *)
Definition basevectors_sm_nd (cfg : R * R * R) (time : nd R) (dipole : dipole_nd) : result bases :=
  bind (dipole_to_vec_nd cfg dipole) (fun vec =>
  bind (sun_position_nd time) (fun sun =>
  let s := map1 sun_vec sun in
  bind (assign (sh s) vec) (fun sm_3 =>
  bind (op2 np_cross sm_3 s) (fun sm_2 =>
  let sm_2 := map1 unit sm_2 in
  bind (op2 np_cross sm_2 sm_3) (fun sm_1 =>
  Ok (sm_1, sm_2, sm_3)))))).
(** basevectors_mag, 1213-1242 *)
Definition basevectors_mag_nd (cfg : R * R * R) (dipole : dipole_nd) : result bases :=
  bind (dipole_to_vec_nd cfg dipole) (fun mag_3 =>
  bind (op2 np_cross (scalar (V3 0 0 1)) mag_3) (fun mag_2 =>
  let mag_2 := map1 unit mag_2 in
  bind (op2 np_cross mag_2 mag_3) (fun mag_1 =>
  Ok (mag_1, mag_2, mag_3)))).
(** basevectors_use, 1245-1299: the check of 1267 looks at the smallest and
    the largest colatitude of the array; the components are assigned to
    arrays of the broadcast shape. *)
Definition basevectors_use_nd (theta phi : nd R) : result (nd base) :=
  let thetas := map np_radians (elems theta) in
  bind (np_amin thetas) (fun mn =>
  if Req_EM_T mn 0 then Err ValueError else
  bind (np_amax thetas) (fun mx =>
  if Req_EM_T mx PI then Err ValueError else
  op2 use_base theta phi)).

(** geo_to_base, 1302-1354 *)
Definition lin3 (a : nd R) (x : result (nd R)) (b : nd R) (y : result (nd R)) (c : nd R) (z : result (nd R)) : result (nd R) :=
  rop2 Rplus (rop2 Rplus (rop2 Rmult (Ok a) x) (rop2 Rmult (Ok b) y)) (rop2 Rmult (Ok c) z).
Definition geo_to_base_nd (theta phi : nd R) (b : bases) (inverse : bool) : result (nd R * nd R) :=
  let '(b1, b2, b3) := b in
  let x := op2 (fun p t => 1 * cos (np_radians p) * sin (np_radians t)) phi theta in
  let y := op2 (fun p t => 1 * sin (np_radians p) * sin (np_radians t)) phi theta in
  let z := Ok (map1 (fun t => 1 * cos (np_radians t)) theta) in
  let rx := if inverse then lin3 (map1 vx b1) x (map1 vx b2) y (map1 vx b3) z else lin3 (map1 vx b1) x (map1 vy b1) y (map1 vz b1) z in
  let ry := if inverse then lin3 (map1 vy b1) x (map1 vy b2) y (map1 vy b3) z else lin3 (map1 vx b2) x (map1 vy b2) y (map1 vz b2) z in
  let rz := if inverse then lin3 (map1 vz b1) x (map1 vz b2) y (map1 vz b3) z else lin3 (map1 vx b3) x (map1 vy b3) y (map1 vz b3) z in
  bind (rop2 (fun h z => np_degrees (np_arctan2 (sqrt h) z)) (rop2 (fun x y => x ^ 2 + y ^ 2) rx ry) rz) (fun t =>
  bind (rop2 (fun y x => np_degrees (np_arctan2 y x)) ry rx) (fun p => Ok (t, p))).

(** The choice of the base vectors, 1401-1421 and 1556-1578; without a time
    the sun's position fails (None // 365.25). *)
Definition reference_bases_nd (cfg : R * R * R) (time : option (nd R)) (reference : option string) (dipole : dipole_nd) : result bases :=
  let reference := lower (str_opt reference) in
  let timed (f : nd R -> result bases) :=
    match time with None => bind (dipole_to_vec_nd cfg dipole) (fun _ => Err TypeError) | Some t => f t end in
  if String.eqb reference "gsm" then timed (fun t => basevectors_gsm_nd cfg t dipole)
  else if String.eqb reference "sm" then timed (fun t => basevectors_sm_nd cfg t dipole)
  else if String.eqb reference "mag" then basevectors_mag_nd cfg dipole
  else Err ValueError.
(** transform_points, 1357-1430 *)
Definition transform_points_nd (cfg : R * R * R) (theta phi : nd R) (time : option (nd R)) (reference : option string)
    (inverse : option bool) (dipole : dipole_nd) : result (nd R * nd R) :=
  let inverse := match inverse with None => false | Some i => i end in
  bind (reference_bases_nd cfg time reference dipole) (fun b => geo_to_base_nd theta phi b inverse).

(** matrix_geo_to_base, 1433-1500; np.matmul broadcasts the leading axes. *)
Definition matrix_geo_to_base_nd (theta phi : nd R) (b : bases) (inverse : bool) : result (nd R * nd R * nd mat3) :=
  bind (geo_to_base_nd theta phi b inverse) (fun other =>
  let geo := if inverse then other else (theta, phi) in
  let ref := if inverse then (theta, phi) else other in
  bind (basevectors_use_nd (fst geo) (snd geo)) (fun use1 =>
  let '(b1, b2, b3) := b in
  bind (stack3 (fun u v w => (u, v, w)) b1 b2 b3) (fun rows =>
  bind (op2 (fun r u => matmul r (cols_of u)) rows use1) (fun R_use_to_ref =>
  bind (basevectors_use_nd (fst ref) (snd ref)) (fun use2 =>
  bind (op2 (fun u m => matmul (rows_of u) m) use2 R_use_to_ref) (fun R_ =>
  if inverse then Ok (fst geo, snd geo, map1 transpose R_) else Ok (fst ref, snd ref, R_))))))).
(** transform_vectors, 1503-1588 *)
Definition entry (m : mat3) (i j : nat) : R :=
  let '(r1, r2, r3) := m in
  let r := match i with O => r1 | 1 => r2 | _ => r3 end%nat in
  match j with O => vx r | 1 => vy r | _ => vz r end%nat.
Definition transform_vectors_nd (cfg : R * R * R) (theta phi B_theta B_phi : nd R) (time : option (nd R)) (reference : option string)
    (inverse : option bool) (dipole : dipole_nd) : result (nd R * nd R * nd R * nd R) :=
  let inverse := match inverse with None => false | Some i => i end in
  bind (reference_bases_nd cfg time reference dipole) (fun b =>
  bind (matrix_geo_to_base_nd theta phi b inverse) (fun tpr =>
  let '(t, p, R_) := tpr in
  let comp i := rop2 Rplus (op2 Rmult (map1 (fun m => entry m i 1) R_) B_theta) (op2 Rmult (map1 (fun m => entry m i 2) R_) B_phi) in
  bind (comp 1%nat) (fun bt => bind (comp 2%nat) (fun bp => Ok (t, p, bt, bp))))).
