(** Theorems about spherical harmonic analysis of arbitrary functions (C154).

    K = max(nmax, kmax); the grid has K+1 colatitudes and 2K+2 longitudes.
    [grid_mean], [mean_square], [add_scaled] are in Spec_Grid; [expand nmax c]
    (Spec_Analysis) is the function with the coefficients c of degrees 1 to
    nmax. *)
From Coq Require Import Reals List Bool Arith Lia Lra.
From Verif Require Import M_Prelude Spec_Legendre Spec_Field Spec_Analysis Spec_Grid M_Coord M_Analysis P_BestFit P_Gauss2 W_Analysis.
Import ListNotations.
Open Scope R_scope.

Local Notation points nmax kmax := (match kmax with None => nmax | Some k => Nat.max nmax k end + 1)%nat.
Local Notation error leggauss points := (fit_error points (fst (leggauss points)) (snd (leggauss points))).

Lemma rule_of leggauss nmax kmax : gauss_legendre leggauss -> gauss_rule (points nmax kmax) (fst (leggauss (points nmax kmax))) (snd (leggauss (points nmax kmax))).
Proof. intros HG. apply HG. lia. Qed.

(** For every function the analysis succeeds and returns, of all coefficients
    up to nmax, those with the smallest mean square error on the grid; any
    others are worse by the mean square of the difference. *)
Theorem C154_best_fit : forall oob leggauss func nmax kmax, gauss_legendre leggauss -> (1 <= nmax)%nat ->
  exists l, sh_analysis oob leggauss func nmax kmax = Ok l /\ List.length l = (nmax * (nmax + 2))%nat /\
    forall c, List.length c = (nmax * (nmax + 2))%nat ->
      let err := error leggauss (points nmax kmax) nmax func in
      err c = err l + mean_square nmax (add_scaled (-1) l c) /\ err l <= err c /\ (err c = err l -> c = l).
Proof. intros oob leggauss func nmax kmax HG Hn. exact (best_fit_list oob leggauss nmax kmax Hn (rule_of leggauss nmax kmax HG) func). Qed.

Theorem C154_linear : forall oob leggauss f1 f2 a nmax kmax l1 l2, gauss_legendre leggauss -> (1 <= nmax)%nat ->
  sh_analysis oob leggauss f1 nmax kmax = Ok l1 -> sh_analysis oob leggauss f2 nmax kmax = Ok l2 ->
  sh_analysis oob leggauss (fun t p => f1 t p + a * f2 t p) nmax kmax = Ok (add_scaled a l1 l2).
Proof. intros oob leggauss f1 f2 a nmax kmax l1 l2 HG Hn. exact (analysis_linear oob leggauss nmax kmax Hn (rule_of leggauss nmax kmax HG) f1 f2 a l1 l2). Qed.

(** Only the values at the points of the grid count. *)
Theorem C154_grid_values : forall oob leggauss f1 f2 nmax kmax, gauss_legendre leggauss -> (1 <= nmax)%nat ->
  let k := points nmax kmax in
  (forall i j, (i < k)%nat -> (j < 2 * k)%nat ->
    f1 (acos (nth i (fst (leggauss k)) 0) * (180 / PI)) (INR j * (180 / INR k)) = f2 (acos (nth i (fst (leggauss k)) 0) * (180 / PI)) (INR j * (180 / INR k))) ->
  sh_analysis oob leggauss f1 nmax kmax = sh_analysis oob leggauss f2 nmax kmax.
Proof. intros oob leggauss f1 f2 nmax kmax HG Hn. exact (analysis_grid oob leggauss nmax kmax Hn (rule_of leggauss nmax kmax HG) f1 f2). Qed.

(** Degree 0 is not asked for and does not disturb. *)
Theorem C154_constants_are_ignored : forall oob leggauss func c nmax kmax, gauss_legendre leggauss -> (1 <= nmax)%nat ->
  sh_analysis oob leggauss (fun t p => func t p + c) nmax kmax = sh_analysis oob leggauss func nmax kmax.
Proof. intros oob leggauss func c nmax kmax HG Hn. exact (analysis_constant oob leggauss nmax kmax Hn (rule_of leggauss nmax kmax HG) func c). Qed.

(** ** The hypotheses are met: |theta - 90|, not an expansion of any degree,
    analysed up to degree 2 with the standard rule. *)
Example C154_ex : exists l, sh_analysis 0 standard_leggauss (fun t _ => Rabs (t - 90)) 2 (Some 4%nat) = Ok l /\ List.length l = 8%nat /\
  error standard_leggauss 5%nat 2%nat (fun t _ => Rabs (t - 90)) l <= error standard_leggauss 5%nat 2%nat (fun t _ => Rabs (t - 90)) [0; 0; 0; 45; 0; 0; 0; 0].
Proof.
  destruct (C154_best_fit 0 standard_leggauss (fun t _ => Rabs (t - 90)) 2 (Some 4%nat) standard_rules ltac:(lia)) as (l & E & L & B).
  exists l. split; [exact E|]. split; [exact L|]. exact (proj1 (proj2 (B [0; 0; 0; 45; 0; 0; 0; 0] eq_refl))).
Qed.

(** mean_square [1; 0; 2] with nmax = 1: (1 + 4) / 3 *)
Example C154_mean_square : mean_square 1 [1; 0; 2] = 5 / 3.
Proof. unfold mean_square, degree_power, range_incl, g_position, h_position, Rsum. cbn. field. Qed.

Print Assumptions C154_best_fit.
Print Assumptions C154_linear.
Print Assumptions C154_grid_values.
Print Assumptions C154_constants_are_ignored.
