(** Model of [legendre_poly], chaosmagpy/model_utils.py 897-965, for one
    colatitude (the code is elementwise over the trailing dimensions). *)
From Coq Require Import Reals List Arith.
From Verif Require Import M_Prelude.
Import ListNotations.
Open Scope R_scope.

(** A two-dimensional array as a function of its indices; item assignment. *)
Definition tab := nat -> nat -> R.
Definition upd (P : tab) (i j : nat) (v : R) : tab :=
  fun a b => if (Nat.eqb a i && Nat.eqb b j)%bool then v else P a b.

(** for i in range(a, b): acc = f(acc, i) *)
Definition for_range {A} (a b : nat) (f : A -> nat -> A) (acc : A) : A :=
  fold_left f (seq a (b - a)) acc.

(** np.radians *)
Definition radians (deg : R) : R := deg * (PI / 180).

Section Legendre.
(** [oob]: what a read behind the end of an array would give.  The theorems
    hold for every value of [oob], i.e. no such read matters. *)
Variable oob : R.

(** model_utils.py 934: rootn = np.sqrt(np.arange(2 * nmax**2 + 1)) *)
Definition rootn (nmax k : nat) : R :=
  if (k <=? 2 * nmax ^ 2)%nat then sqrt (INR k) else oob.

(** model_utils.py 930-932: np.zeros((nmax+1, nmax+2)), first entries. *)
Definition leg_init (nmax : nat) (sinth : R) : tab :=
  let P : tab := fun i j =>
    if ((i <=? nmax) && (j <=? nmax + 1))%nat%bool then 0 else oob in
  upd (upd P 0 0 1) 1 1 sinth.

(** model_utils.py 945-949: inner loop over n in range(m+2, nmax+1). *)
Definition leg_col (nmax : nat) (costh : R) (m : nat) (P : tab) : tab :=
  for_range (m + 2) (nmax + 1) (fun P n =>
    let d := (n * n - m * m)%nat in
    let e := (n + n - 1)%nat in
    upd P n m ((INR e * costh * P (n-1)%nat m - rootn nmax (d - e) * P (n-2)%nat m)
               / rootn nmax d)) P.

(** model_utils.py 938-949: outer loop over m in range(nmax). *)
Definition leg_vals (nmax : nat) (costh sinth : R) (P : tab) : tab :=
  for_range 0 nmax (fun P m =>
    let tmp := rootn nmax (m + m + 1) * P m m in
    let P := upd P (m+1)%nat m (costh * tmp) in
    let P := if (0 <? m)%nat
             then upd P (m+1)%nat (m+1)%nat (sinth * tmp / rootn nmax (m + m + 2))
             else P in
    leg_col nmax costh m P) P.

(** model_utils.py 952-963: derivatives, stored at [m, n+1]. *)
Definition leg_derivs (nmax : nat) (P : tab) : tab :=
  let P := upd P 0 2 (- P 1%nat 1%nat) in
  let P := upd P 1 2 (P 1%nat 0%nat) in
  for_range 2 (nmax + 1) (fun P n =>
    let P := upd P 0 (n+1)%nat (- sqrt (INR (n*n + n) / 2) * P n 1%nat) in
    let P := upd P 1 (n+1)%nat ((sqrt (INR (2 * (n*n + n))) * P n 0%nat
                                 - sqrt (INR (n*n + n - 2)) * P n 2%nat) / 2) in
    let P := for_range 2 n (fun P m =>
      upd P m (n+1)%nat (/2 * (sqrt (INR ((n + m) * (n - m + 1))) * P n (m-1)%nat
                               - sqrt (INR ((n + m + 1) * (n - m))) * P n (m+1)%nat))) P in
    upd P n (n+1)%nat (sqrt (INR (2 * n)) * P n (n-1)%nat / 2)) P.

(** model_utils.py 897-965; for nmax = 0 the assignment Pnm[1, 1] (line 932)
    is out of bounds. *)
Definition legendre_poly (nmax : nat) (theta : R) : result tab :=
  let costh := cos (radians theta) in
  let sinth := sqrt (1 - costh ^ 2) in
  if (nmax =? 0)%nat then Err IndexError
  else Ok (leg_derivs nmax (leg_vals nmax costh sinth (leg_init nmax sinth))).

End Legendre.
