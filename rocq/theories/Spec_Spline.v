(** B-splines, independently of the code: the Cox-de Boor recursion.

    Knots t_0 <= t_1 <= ...; the intervals are closed on the left and open on
    the right, except that the last non-empty one is closed. *)
From Coq Require Import Reals List Arith.
Import ListNotations.
Open Scope R_scope.

Definition ratio (p q : R) : R := if Req_EM_T q 0 then 0 else p / q.

(** 1 if x belongs to the interval from t_i to t_(i+1), else 0 *)
Definition indicator (t : list R) (i : nat) (x : R) : R :=
  if Rle_dec (nth i t 0) x then
    if Rlt_dec x (nth (i + 1) t 0) then 1 else
    if Rlt_dec (nth i t 0) (nth (i + 1) t 0) then
      if Req_EM_T (nth (i + 1) t 0) (last t 0) then if Req_EM_T x (last t 0) then 1 else 0 else 0
    else 0
  else 0.

(** i-th B-spline of degree k *)
Fixpoint bspline (t : list R) (k i : nat) (x : R) : R :=
  match k with
  | O => indicator t i x
  | S k => ratio (x - nth i t 0) (nth (i + k + 1) t 0 - nth i t 0) * bspline t k i x +
           ratio (nth (i + k + 2) t 0 - x) (nth (i + k + 2) t 0 - nth (i + 1) t 0) * bspline t k (i + 1) x
  end.

(** sum of c_i B_i over the first n B-splines *)
Definition spline (t : list R) (k : nat) (c : nat -> R) (n : nat) (x : R) : R :=
  fold_right Rplus 0 (map (fun i => c i * bspline t k i x) (seq 0 n)).
