(** Model of [colloc_matrix] (chaosmagpy/model_utils.py 144-192) and
    [design_matrix] (36-141).

    [BSpline.construct_fast(...)(x, nu)] is SciPy code: [find_interval],
    [deboor] and [bspline_eval] describe scipy.interpolate._bspl
    (find_interval, _deBoor_D, evaluate_spline), from knowledge of that
    library.  Arithmetic is exact; NaN is [None]. *)
From Coq Require Import Reals List Arith ZArith String Bool.
From Verif Require Import M_Prelude M_ND M_Synth M_SynthArr M_Spectrum.
Import ListNotations.
Open Scope R_scope.

Definition knot (t : list R) (i : nat) : R := nth i t 0.

(** while x >= t[ell+1] and ell != n-1: ell += 1 *)
Fixpoint find_interval (fuel : nat) (t : list R) (n : nat) (x : R) (ell : nat) : nat :=
  match fuel with
  | O => ell
  | S fuel =>
      if Rle_dec (knot t (ell + 1)) x then
        if (ell =? n - 1)%nat then ell else find_interval fuel t n x (ell + 1)
      else ell
  end.

Definition upd (h : nat -> R) (i : nat) (v : R) : nat -> R := fun k => if (k =? i)%nat then v else h k.

(** One sweep of _deBoor_D for the values. *)
Definition deboor_sweep (t : list R) (x : R) (ell j : nat) (hh : nat -> R) : nat -> R :=
  fold_left (fun h n =>
    let xb := knot t (ell + n) in
    let xa := knot t (ell + n - j) in
    if Req_EM_T xb xa then upd h n 0 else
    let w := hh (n - 1)%nat / (xb - xa) in
    upd (upd h (n - 1) (h (n - 1)%nat + w * (xb - x))) n (w * (x - xa)))
  (seq 1 j) (upd hh 0 0).

(** One sweep of _deBoor_D for the derivatives. *)
Definition deboor_dsweep (t : list R) (ell j : nat) (hh : nat -> R) : nat -> R :=
  fold_left (fun h n =>
    let xb := knot t (ell + n) in
    let xa := knot t (ell + n - j) in
    if Req_EM_T xb xa then upd h n 0 else
    let w := INR j * hh (n - 1)%nat / (xb - xa) in
    upd (upd h (n - 1) (h (n - 1)%nat - w)) n w)
  (seq 1 j) (upd hh 0 0).

(** The k+1 nonzero basis functions (derivative m <= k) on interval ell. *)
Definition deboor (t : list R) (x : R) (k ell m : nat) : nat -> R :=
  fold_left (fun h j => deboor_dsweep t ell j h) (seq (k - m + 1) m)
    (fold_left (fun h j => deboor_sweep t x ell j h) (seq 1 (k - m)) (fun _ => 1)).

(** evaluate_spline with extrapolate=False for degree k, coefficients c. *)
Definition bspline_eval (t : list R) (c : list R) (k : nat) (x : R) (nu : nat) : option R :=
  let n := (List.length t - k - 1)%nat in
  if Rlt_dec x (knot t k) then None else
  if Rlt_dec (knot t n) x then None else
  let ell := find_interval (List.length t) t n x k in
  let h := deboor t x k ell nu in
  Some (fold_left (fun out a => out + nth (ell + a - k) c 0 * h a) (seq 0 (k + 1)) 0).

(** np.zeros(n) with entry i set to 1 *)
Definition unit_vec (n i : nat) : list R := map (fun k => if (k =? i)%nat then 1 else 0) (seq 0 n).

Record omat := mkomat { o_rows : nat; o_cols : nat; o_at : nat -> nat -> option R }.

(** model_utils.py 144-192; [x] one-dimensional; [deriv] not negative. *)
Definition colloc_matrix (x : list R) (knots : list R) (order : nat) (deriv : option nat) : result omat :=
  let deriv := match deriv with None => 0%nat | Some d => d end in
  if (List.length knots <? order)%nat then Err ValueError else    (* negative dimensions *)
  let rows := Nat.max (List.length x) 1 in
  let cols := (List.length knots - order)%nat in
  if (order <=? deriv)%nat then Ok (mkomat rows cols (fun _ _ => Some 0)) else
  if ((List.length x =? 0) && (0 <? cols))%nat%bool then Err ValueError else  (* (0,) into (1,) *)
  Ok (mkomat rows cols (fun i n =>
        bspline_eval knots (unit_vec cols n) (order - 1) (nth i x 0) deriv)).

(** ** design_matrix *)

(** G[:, c0:c0+w] = V for a matrix with [tot] columns; the slice is clipped,
    so that a value of another width does not fit. *)
Definition set_cols (tot c0 w : nat) (V : nat -> nat -> option R) (G : nat -> nat -> option R)
  : result (nat -> nat -> option R) :=
  if (c0 + w <=? tot)%nat
  then Ok (fun i k => if ((c0 <=? k) && (k <? c0 + w))%nat%bool then V i (k - c0)%nat else G i k)
  else Err ValueError.

Definition omulr (x : R) (y : option R) : option R := option_map (Rmult x) y.

(** Result: number of columns and the three matrices. *)
Record dmat := mkdmat { m_cols : nat; m_r : nat -> nat -> option R; m_t : nat -> nat -> option R; m_p : nat -> nat -> option R }.

Definition shape_eqb (a b : list nat) : bool := if list_eq_dec Nat.eq_dec a b then true else false.

(** np.amin(theta) > 0. and np.amax(theta) < 180. *)
Definition thetas_inside (l : list R) : result bool :=
  match l with
  | [] => Err ValueError
  | x :: l' => Ok (if Rlt_dec 0 (fold_left Rmin l' x) then if Rlt_dec (fold_left Rmax l' x) 180 then true else false else false)
  end.

(** Loop body, 125-133 *)
Definition dm_step (tot nseg : nat) (A : gmat) (coll : nat -> nat -> option R)
    (y : nat * (nat -> nat -> option R) * (nat -> nat -> option R) * (nat -> nat -> option R)) (coeff : nat) :=
  let '(n_col, Mr, Mt, Mp) := y in
  bind (set_cols tot n_col nseg (fun i k => omulr (g_r A [i] coeff) (coll i k)) Mr) (fun Mr =>
  bind (set_cols tot n_col nseg (fun i k => omulr (g_t A [i] coeff) (coll i k)) Mt) (fun Mt =>
  bind (set_cols tot n_col nseg (fun i k => omulr (g_p A [i] coeff) (coll i k)) Mp) (fun Mp =>
  Ok ((n_col + nseg)%nat, Mr, Mt, Mp)))).

(** model_utils.py 36-141; [junk] is the uninitialised memory of np.empty;
    [n_tdep] is not negative.  Warnings dropped. *)
Definition design_matrix (junk : nat -> nat -> option R) (oob a : R) (knots : list R) (order : nat) (n_tdep : nat)
    (time radius theta phi : nd R) (n_static : option Z) (source : option string) : result dmat :=
  if negb (shape_eqb (sh time) (sh radius) && shape_eqb (sh radius) (sh theta) && shape_eqb (sh theta) (sh phi))%bool
  then Err AssertionError else
  if negb (List.length (sh time) =? 1)%nat then Err AssertionError else
  bind (thetas_inside (elems theta)) (fun b =>
  if negb b then Err AssertionError else
  bind (match n_static with
        | Some z => if ((negb (z =? 0)) && (z <? Z.of_nat n_tdep))%Z%bool then Err ValueError else Ok z
        | None => Ok (Z.of_nat n_tdep)
        end) (fun n_static =>
  let source := match source with None => "internal"%string | Some s => s end in
  let nct := (n_tdep * (n_tdep + 2))%nat in
  let ncs := Z.to_nat (n_static * (n_static + 2)) in
  bind (design_gauss oob a radius theta phi n_static None None (Some source)) (fun A =>
  bind (colloc_matrix (elems time) knots order None) (fun coll =>
  let nseg := o_cols coll in
  let totZ := ((Z.of_nat nseg - 1) * Z.of_nat nct + Z.of_nat ncs)%Z in
  if (totZ <? 0)%Z then Err ValueError else
  let tot := Z.to_nat totZ in
  bind (for_rangeM 0 nct (dm_step tot nseg A (o_at coll))
    (0%nat, junk, junk, junk)) (fun '(n_col, Mr, Mt, Mp) =>
  let w := (tot - n_col)%nat in
  if negb (w =? ncs - nct)%nat then Err ValueError else
  bind (set_cols tot n_col w (fun i k => Some (g_r A [i] (nct + k)%nat)) Mr) (fun Mr =>
  bind (set_cols tot n_col w (fun i k => Some (g_t A [i] (nct + k)%nat)) Mt) (fun Mt =>
  bind (set_cols tot n_col w (fun i k => Some (g_p A [i] (nct + k)%nat)) Mp) (fun Mp =>
  Ok (mkdmat tot Mr Mt Mp))))))))).
