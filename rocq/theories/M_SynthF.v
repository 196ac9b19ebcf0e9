(** [synth_values] (chaosmagpy/model_utils.py 495-642) in double precision, for
    one point.  Every operation is the exact one followed by rounding, in the
    order of the code; small integers are exact.  Parameters: the table [P] of
    [legendre_poly] (as computed), the longitude [phi] in radians (as computed
    by np.radians), and the functions [pow], [fcos], [fsin] of the C library. *)
From Coq Require Import ZArith Reals List Arith.
From Verif Require Import M_Prelude Spec_Field Spec_Float M_Legendre M_Synth.
Import ListNotations.
Open Scope R_scope.

(** 624-629: Pnm/sinth; at the poles the derivative times Pnm[1, 0] *)
Definition div_P_f (P : tab) (sinth : R) (pole : bool) (n m : nat) : R :=
  if pole then rn (P m (n + 1)%nat * P 1%nat 0%nat) else rn (P n m / sinth).

(** 600-635: body of the loop over m *)
Definition synth_m_f (fcos fsin : R -> R) (s : src) (P : tab) (sinth : R) (pole : bool) (phi : R)
    (c : list R) (n : nat) (x : acc) (m : nat) : result acc :=
  let cmp := fcos (rn (INR m * phi)) in
  let smp := fsin (rn (INR m * phi)) in
  bind (getc c (a_num x)) (fun cg => bind (getc c (a_num x + 1)) (fun ch =>
  let br := match s with
            | Internal => rn (a_br x + rn (rn (rn (INR (n + 1) * P n m) * a_rn x) * rn (rn (cg * cmp) + rn (ch * smp))))
            | External => rn (a_br x + - rn (rn (rn (INR n * P n m) * a_rn x) * rn (rn (cg * cmp) + rn (ch * smp))))
            end in
  let bt := rn (a_bt x + rn (rn (- P m (n + 1)%nat * a_rn x) * rn (rn (cg * cmp) + rn (ch * smp)))) in
  let bp := rn (a_bp x + rn (rn (rn (INR m * div_P_f P sinth pole n m) * a_rn x) * rn (rn (cg * smp) - rn (ch * cmp)))) in
  Ok (mkacc (a_num x + 2) (a_rn x) br bt bp))).

(** 590-640: body of the loop over n *)
Definition synth_n_f (fcos fsin : R -> R) (s : src) (r : R) (P : tab) (sinth : R) (pole : bool) (phi : R)
    (c : list R) (mmax : nat) (x : acc) (n : nat) : result acc :=
  bind (getc c (a_num x)) (fun c0 =>
  let br := match s with
            | Internal => rn (a_br x + rn (rn (rn (INR (n + 1) * P n 0%nat) * a_rn x) * c0))
            | External => rn (a_br x + rn (rn (rn (- INR n * P n 0%nat) * a_rn x) * c0))
            end in
  let bt := rn (a_bt x + rn (rn (- P 0%nat (n + 1)%nat * a_rn x) * c0)) in
  bind (for_rangeM 1 (Nat.min n mmax + 1) (synth_m_f fcos fsin s P sinth pole phi c n)
          (mkacc (a_num x + 1) (a_rn x) br bt (a_bp x)))
  (fun y => Ok (mkacc (a_num y)
                  (match s with Internal => rn (a_rn y / r) | External => rn (a_rn y * r) end)
                  (a_br y) (a_bt y) (a_bp y)))).

(** 495-496 (radius / r_surf), 564-569 and 571-642 for one point; [pole]: the
    colatitude is 0 or 180 *)
Definition synth_point_f (pow : R -> Z -> R) (fcos fsin : R -> R) (s : src) (a : R) (nmin nmax mmax : nat) (pole : bool) (P : tab)
    (c : list R) (radius phi : R) : result (R * R * R) :=
  let r := rn (radius / a) in
  let r_n := match s with Internal => pow r (- (Z.of_nat nmin + 2))%Z | External => pow r (Z.of_nat nmin - 1)%Z end in
  bind (for_rangeM nmin (nmax + 1) (synth_n_f fcos fsin s r P (P 1%nat 1%nat) pole phi c mmax) (mkacc 0 r_n 0 0 0))
  (fun x => Ok (a_br x, a_bt x, a_bp x)).
