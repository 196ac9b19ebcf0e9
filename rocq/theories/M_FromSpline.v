(** Model of [pp_from_bspline] (chaosmagpy/model_utils.py 222-263) and
    [BaseModel.from_bspline] (chaosmagpy/chaos.py 655-692).

    SciPy's BSpline constructor checks and PPoly.from_spline are modelled from
    knowledge of the library: column i of pp.c holds the derivatives of the
    spline at t[i], divided by the factorials, highest first.  Exact
    arithmetic. *)
From Coq Require Import Reals List Arith ZArith String Bool.
From Verif Require Import M_Prelude M_ND M_Spectrum M_Spline M_PP M_Model.
Import ListNotations.
Open Scope R_scope.

(** np.unique: sorted, without repetitions *)
Fixpoint insert_unique (v : R) (l : list R) : list R :=
  match l with
  | [] => [v]
  | y :: l' => if Rlt_dec v y then v :: l else if Req_EM_T v y then l else y :: insert_unique v l'
  end.
Definition unique (l : list R) : list R := fold_right insert_unique [] l.

(** Checks of BSpline.__init__ for degree k and [rows] coefficients. *)
Fixpoint sortedb (l : list R) : bool :=
  match l with
  | x :: ((y :: _) as l') => if Rlt_dec y x then false else sortedb l'
  | _ => true
  end.
Definition bspline_check (t : list R) (rows k : nat) : bool :=
  let n := (List.length t - k - 1)%nat in
  ((2 * k + 2 <=? List.length t)%nat && sortedb t && (2 <=? List.length (unique (firstn (n + 1 - k) (skipn k t))))%nat && (n <=? rows)%nat)%bool.

(** PPoly.from_spline(bs).c[j, i]: derivative k - j at t[i] over (k - j)! *)
Definition from_spline (t c : list R) (k j i : nat) : R :=
  match bspline_eval t c k (knot t i) (k - j) with Some v => v / INR (fact (k - j)) | None => 0 end.

(** model_utils.py 222-263; coeffs of shape (rows, dim), order >= 1 *)
Definition pp_from_bspline (rows dim : nat) (coeffs : nat -> nat -> R) (knots : list R) (order : nat) : result (c3 * list R) :=
  let degree := (order - 1)%nat in
  let breaks := unique knots in
  let pieces := (List.length breaks - 1)%nat in
  if ((0 <? dim)%nat && negb (bspline_check knots rows degree))%bool then Err ValueError else
  (* pp.c has len(knots) - 1 columns *)
  if ((0 <? dim)%nat && negb (degree + pieces <=? List.length knots - 1)%nat)%bool then Err ValueError else
  Ok (mkc3 order pieces dim (fun j i d => from_spline knots (map (fun r => coeffs r d) (seq 0 rows)) degree j (degree + i)), breaks).

(** chaos.py 655-692 *)
Definition from_bspline (rows dim : nat) (coeffs : nat -> nat -> R) (knots : list R) (order : nat) (source : option string) : result field_model :=
  bind (pp_from_bspline rows dim coeffs knots order) (fun '(c, breaks) =>
  Ok (model_init (Some breaks) (Some (Z.of_nat order)) (Some c) source)).
