(** A least-squares solver exists (Gram-Schmidt). *)
From Coq Require Import Reals List Arith ZArith Lia Lra.
From Verif Require Import M_Prelude Spec_Field M_Spectrum Spec_PP Spec_Spline M_SHCModel Spec_Lsq P_Spectrum P_Spline.
Import ListNotations.
Open Scope R_scope.

Section LS.
Variable m : nat.
Definition ip (u v : nat -> R) : R := Rsum (map (fun i => u i * v i) (seq 0 m)).
Definition lin (A : nat -> nat -> R) (n : nat) (c : nat -> R) (i : nat) : R := Rsum (map (fun j => c j * A i j) (seq 0 n)).

Lemma ip_ext u u' v v' : (forall i, (i < m)%nat -> u i = u' i) -> (forall i, (i < m)%nat -> v i = v' i) -> ip u v = ip u' v'.
Proof. intros H1 H2. apply Rsum_seq_ext. intros i Hi. rewrite H1, H2 by exact Hi. reflexivity. Qed.
Lemma ip_comm u v : ip u v = ip v u. Proof. apply Rsum_seq_ext. intros; ring. Qed.
Lemma ip_lin2 u v w s : ip (fun i => u i - s * v i) w = ip u w - s * ip v w.
Proof. unfold ip. induction (seq 0 m) as [|i l IH]; [cbn; ring|]. cbn [map]. rewrite !Rsum_cons, IH. ring. Qed.
Lemma ip_zero u : ip u u = 0 -> forall i, (i < m)%nat -> u i = 0.
Proof.
  intros H i Hi. assert (L : In i (seq 0 m)) by (apply in_seq; lia). unfold ip in H. revert H L. generalize (seq 0 m) as l.
  assert (NN : forall l, 0 <= Rsum (map (fun i => u i * u i) l)).
  { induction l as [|a l IH]; [cbn; lra|]. cbn [map]. rewrite Rsum_cons. pose proof (Rle_0_sqr (u a)). unfold Rsqr in *. lra. }
  induction l as [|a l IH]; intros H L; [destruct L|]. cbn [map] in H. rewrite Rsum_cons in H. pose proof (Rle_0_sqr (u a)) as Q. unfold Rsqr in Q. pose proof (NN l).
  destruct L as [ -> |L]; [|apply IH; [lra|exact L]]. assert (u i * u i = 0) by lra. apply Rmult_integral in H1. tauto.
Qed.
Lemma ip_lin A n c v : ip (lin A n c) v = Rsum (map (fun j => c j * ip (fun i => A i j) v) (seq 0 n)).
Proof.
  unfold ip, lin. transitivity (Rsum (map (fun i => Rsum (map (fun j => c j * A i j * v i) (seq 0 n))) (seq 0 m))).
  - apply Rsum_seq_ext. intros i _. induction (seq 0 n) as [|j l IH]; [cbn; ring|]. cbn [map]. rewrite !Rsum_cons, <- IH. ring.
  - rewrite Rsum_swap. apply Rsum_seq_ext. intros j _. induction (seq 0 m) as [|i l IH]; [cbn; ring|]. cbn [map]. rewrite !Rsum_cons, IH. ring.
Qed.

(** coefficients of the projection on the first n columns *)
Fixpoint ls (A : nat -> nat -> R) (n : nat) (y : nat -> R) : nat -> R :=
  match n with
  | O => fun _ => 0
  | S n =>
      let c := ls A n y in
      let d := ls A n (fun i => A i n) in
      let r := fun i => y i - lin A n c i in
      let q := fun i => A i n - lin A n d i in
      let s := if Req_EM_T (ip q q) 0 then 0 else ip r q / ip q q in
      fun j => if (j =? n)%nat then s else c j - s * d j
  end.

Lemma ls_orth A : forall n y j, (j < n)%nat -> ip (fun i => A i j) (fun i => y i - lin A n (ls A n y) i) = 0.
Proof.
  induction n as [|n IH]; intros y j Hj; [lia|]. set (c := ls A n y). set (d := ls A n (fun i => A i n)).
  set (r := fun i => y i - lin A n c i). set (q := fun i => A i n - lin A n d i).
  set (s := if Req_EM_T (ip q q) 0 then 0 else ip r q / ip q q).
  assert (RE : forall i, y i - lin A (S n) (ls A (S n) y) i = r i - s * q i).
  { intros i. unfold lin at 1. rewrite P_Spline.Rsum_snoc. cbn [ls]. fold c d. fold r q. fold s. rewrite Nat.eqb_refl.
    rewrite (Rsum_seq_ext _ (fun j => c j * A i j + (- s) * (d j * A i j))).
    2:{ intros j' Hj'. destruct (Nat.eqb_spec j' n); [lia|]. ring. }
    rewrite P_Spline.Rsum_plus, <- (map_map (fun j => d j * A i j) (Rmult (- s))), Rsum_scal. unfold r, q. fold (lin A n c i). fold (lin A n d i). ring. }
  rewrite (ip_ext _ (fun i => A i j) _ (fun i => r i - s * q i)) by (intros; (reflexivity || apply RE)).
  rewrite ip_comm, ip_lin2.
  assert (O1 : forall j, (j < n)%nat -> ip r (fun i => A i j) = 0) by (intros j' Hj'; rewrite ip_comm; apply (IH y j' Hj')).
  assert (O2 : forall j, (j < n)%nat -> ip q (fun i => A i j) = 0) by (intros j' Hj'; rewrite ip_comm; apply (IH (fun i => A i n) j' Hj')).
  destruct (Nat.eq_dec j n) as [ -> |NE]; [|rewrite O1, O2 by lia; ring].
  (* A_n = q + lin d *)
  assert (SP : forall u, (forall j, (j < n)%nat -> ip u (fun i => A i j) = 0) -> ip u (fun i => A i n) = ip u q).
  { intros u Hu. assert (Z : ip (lin A n d) u = 0).
    { rewrite ip_lin. rewrite (Rsum_seq_ext _ (fun _ => 0)); [apply Rsum_const0|]. intros j' Hj'. rewrite (ip_comm (fun i => A i j')), Hu by exact Hj'. ring. }
    rewrite (ip_comm u q). unfold q. rewrite (ip_ext (fun i => A i n - lin A n d i) (fun i => A i n - 1 * lin A n d i) u u) by (intros; ring).
    rewrite ip_lin2, Z, (ip_comm u). ring. }
  rewrite (SP r O1), (SP q O2). unfold s. destruct (Req_EM_T (ip q q) 0) as [E|E]; [|field; exact E].
  rewrite Rmult_0_l, Rminus_0_r. rewrite (ip_ext r r q (fun _ => 0)); [|reflexivity|apply ip_zero; exact E].
  unfold ip. rewrite (Rsum_seq_ext _ (fun _ => 0)); [apply Rsum_const0|]. intros; ring.
Qed.

Lemma ls_best A n y c' :
  Rsum (map (fun i => (y i - lin A n (ls A n y) i) ^ 2) (seq 0 m)) <= Rsum (map (fun i => (y i - lin A n c' i) ^ 2) (seq 0 m)).
Proof.
  set (c := ls A n y). set (r := fun i => y i - lin A n c i). set (e := fun j => c j - c' j).
  assert (EL : forall i, lin A n e i = lin A n c i - lin A n c' i).
  { intros i. unfold lin, e. induction (seq 0 n) as [|j l IH]; [cbn; ring|]. cbn [map]. rewrite !Rsum_cons, IH. ring. }
  assert (Z : ip (lin A n e) r = 0).
  { rewrite ip_lin. rewrite (Rsum_seq_ext _ (fun _ => 0)); [apply Rsum_const0|]. intros j Hj. unfold r, c. rewrite ls_orth by exact Hj. ring. }
  assert (D : Rsum (map (fun i => (y i - lin A n c' i) ^ 2) (seq 0 m)) =
    Rsum (map (fun i => (y i - lin A n c i) ^ 2) (seq 0 m)) + 2 * ip (lin A n e) r + Rsum (map (fun i => (lin A n e i) ^ 2) (seq 0 m))).
  { unfold ip, r. induction (seq 0 m) as [|i l IH]; [cbn; ring|]. cbn [map]. rewrite !Rsum_cons, IH, EL. ring. }
  rewrite D, Z. assert (P : 0 <= Rsum (map (fun i => lin A n e i ^ 2) (seq 0 m))).
  { clear. induction (seq 0 m) as [|i l IH]; [cbn; lra|]. cbn [map]. rewrite Rsum_cons. pose proof (pow2_ge_0 (lin A n e i)). lra. }
  lra.
Qed.
End LS.

Definition gram_schmidt : lsq_fit := fun x dim y t k =>
  let n := (List.length t - k - 1)%nat in
  Ok (fun j d => ls (List.length x) (fun i j => bspline t k j (nth i x 0)) n (fun i => y i d) j).

Lemma gram_schmidt_solves : least_squares gram_schmidt.
Proof.
  intros x dim y breaks t k _ _ _ _ _. eexists. split; [reflexivity|]. intros d Hd c'.
  exact (ls_best (List.length x) (fun i j => bspline t k j (nth i x 0)) (List.length t - k - 1) (fun i => y i d) c').
Qed.
