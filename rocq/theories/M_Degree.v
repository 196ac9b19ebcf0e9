(** How degrees are inferred from numbers of coefficients, in double
    precision: every operation is followed by rounding ([rn]); int() truncates.
    The other model files use the exact integers; Props_Float proves that these
    are the same. *)
From Coq Require Import ZArith Reals.
From Flocq Require Import Core.
From Verif Require Import Spec_Float.
Open Scope Z_scope.

(** int(np.sqrt(x) - 1): chaos.py 328, 987; data_utils.py 328; model_utils.py
    317, 519, 1030, 1102, 1158 *)
Definition int_sqrt (x : Z) : Z := Ztrunc (rn (rn (sqrt (rn (IZR x))) - 1)).

(** np.floor(np.sqrt(k+1)-1).astype(int): coordinate_utils.py 408 *)
Definition floor_sqrt (k : Z) : Z := Zfloor (rn (rn (sqrt (rn (IZR (k + 1)))) - 1)).

(** nmax and mmax in model_utils.py 518-534; Python's integer division is
    rounded once *)
Definition infer_nmax_f (dim nmin : Z) (nmax mmax : option Z) : Z * Z :=
  match nmax, mmax with
  | None, None => let n := int_sqrt (dim + nmin ^ 2) in (n, n)
  | Some n, None => (n, n)
  | None, Some m =>
      if nmin - 1 <=? m
      then (Ztrunc (rn (rn (IZR (dim - m * (m + 2) + nmin ^ 2 - 1) / IZR (2 * m + 1)) + IZR m)), m)
      else (Ztrunc (rn (rn (rn (IZR dim / IZR (2 * m + 1)) + IZR nmin) - 1)), m)
  | Some n, Some m => (n, m)
  end.
