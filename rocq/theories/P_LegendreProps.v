(** Proofs behind Props_Legendre. *)
From Coq Require Import Reals List Arith Lia Lra.
From Coquelicot Require Import Coquelicot.
From Verif Require Import M_Prelude Spec_Legendre M_Legendre P_Legendre P_Legendre2 P_LegendreTab.
Import ListNotations.
Open Scope R_scope.

Lemma entries_are_schmidt oob nmax theta :
  (1 <= nmax)%nat -> 0 <= theta <= 180 ->
  exists P, legendre_poly oob nmax theta = Ok P /\
  forall n m, (m <= n <= nmax)%nat -> P n m = schmidt n m (rad theta).
Proof. intros H1 H2. destruct (legendre_poly_ok oob nmax theta H1 H2) as (P & E & A & _). eauto. Qed.

Lemma entries_are_derivatives oob nmax theta :
  (1 <= nmax)%nat -> 0 <= theta <= 180 ->
  exists P, legendre_poly oob nmax theta = Ok P /\
  forall n m, (m <= n <= nmax)%nat -> is_derive (schmidt n m) (rad theta) (P m (n + 1)%nat).
Proof. intros H1 H2. destruct (legendre_poly_ok oob nmax theta H1 H2) as (P & E & _ & A). eauto. Qed.

Lemma degree_zero_raises oob theta : legendre_poly oob 0 theta = Err IndexError.
Proof. reflexivity. Qed.

Lemma legendre_poly_nmax oob nmax theta P : legendre_poly oob nmax theta = Ok P -> (1 <= nmax)%nat.
Proof. unfold legendre_poly. destruct (Nat.eqb_spec nmax 0); [discriminate|lia]. Qed.

Lemma legendre_poly_entries oob nmax theta P : 0 <= theta <= 180 ->
  legendre_poly oob nmax theta = Ok P ->
  (forall n m, (m <= n <= nmax)%nat -> P n m = schmidt n m (rad theta)) /\
  (forall n m, (m <= n <= nmax)%nat -> is_derive (schmidt n m) (rad theta) (P m (n + 1)%nat)).
Proof.
  intros H E. destruct (legendre_poly_ok oob nmax theta (legendre_poly_nmax _ _ _ _ E) H) as (Q & F & A & B).
  rewrite E in F. injection F as <-. auto.
Qed.

Lemma is_derive_rad (f : R -> R) t l : is_derive f (rad t) l -> is_derive (fun x => f (rad x)) t (l * (PI / 180)).
Proof.
  intros H. rewrite Rmult_comm.
  apply (is_derive_comp f rad t l (PI / 180)); [exact H|].
  unfold rad. auto_derive; [exact I|]. field.
Qed.

Lemma derivative_of_table oob nmax theta P :
  0 < theta < 180 -> legendre_poly oob nmax theta = Ok P ->
  forall n m, (m <= n <= nmax)%nat ->
  is_derive (fun t => match legendre_poly oob nmax t with Ok T => T n m | Err _ => 0 end)
    theta (P m (n + 1)%nat * (PI / 180)).
Proof.
  intros H E n m Hm.
  destruct (legendre_poly_entries _ _ _ _ (conj (Rlt_le _ _ (proj1 H)) (Rlt_le _ _ (proj2 H))) E) as [_ D].
  apply (is_derive_ext_loc (fun t => schmidt n m (rad t))).
  - assert (Hp : 0 < Rmin theta (180 - theta)) by (apply Rmin_glb_lt; lra).
    exists (mkposreal _ Hp). intros t Ht. change (Rabs (t - theta) < Rmin theta (180 - theta)) in Ht.
    pose proof (Rmin_l theta (180 - theta)). pose proof (Rmin_r theta (180 - theta)).
    apply Rabs_def2 in Ht.
    destruct (legendre_poly_ok oob nmax t (legendre_poly_nmax _ _ _ _ E)) as (Q & F & A & _); [lra|].
    rewrite F. symmetry. apply A, Hm.
  - apply is_derive_rad, D, Hm.
Qed.

Lemma sum_f_R0_fold (f : nat -> R) n :
  sum_f_R0 f n = fold_right Rplus 0 (map f (seq 0 (n + 1))).
Proof.
  induction n as [|n IH]; [cbn; ring|].
  replace (S n + 1)%nat with (S (n + 1)) by lia. rewrite seq_S, map_app, fold_right_app. cbn [map fold_right].
  rewrite tech5, IH. replace (0 + (n + 1))%nat with (S n) by lia.
  assert (G : forall l a, fold_right Rplus a l = fold_right Rplus 0 l + a).
  { induction l as [|x l IHl]; intros a; cbn; [ring|]. rewrite IHl. ring. }
  rewrite (G _ (f (S n) + 0)). ring.
Qed.

Lemma squares_sum_to_one oob nmax theta P :
  0 <= theta <= 180 -> legendre_poly oob nmax theta = Ok P ->
  forall n, (n <= nmax)%nat -> fold_right Rplus 0 (map (fun m => P n m ^ 2) (seq 0 (n + 1))) = 1.
Proof.
  intros H E n Hn. destruct (legendre_poly_entries _ _ _ _ H E) as [A _].
  rewrite <- (sumsq_one n (rad theta)). unfold sumsq. rewrite sum_f_R0_fold. f_equal.
  apply map_ext_in. intros m Hm. apply in_seq in Hm. rewrite A by lia. reflexivity.
Qed.

Lemma entries_bounded oob nmax theta P :
  0 <= theta <= 180 -> legendre_poly oob nmax theta = Ok P ->
  forall n m, (m <= n <= nmax)%nat -> -1 <= P n m <= 1.
Proof.
  intros H E n m Hm. destruct (legendre_poly_entries _ _ _ _ H E) as [A _].
  rewrite A by lia. apply Rabs_le_between, schmidt_bound; lia.
Qed.

Lemma equator_reflection oob nmax theta P P' :
  0 <= theta <= 180 ->
  legendre_poly oob nmax theta = Ok P -> legendre_poly oob nmax (180 - theta) = Ok P' ->
  forall n m, (m <= n <= nmax)%nat -> P' n m = (-1) ^ (n + m) * P n m.
Proof.
  intros H E E' n m Hm. destruct (legendre_poly_entries _ _ _ _ H E) as [A _].
  assert (H' : 0 <= 180 - theta <= 180) by lra.
  destruct (legendre_poly_entries _ _ _ _ H' E') as [A' _].
  rewrite A, A' by lia. rewrite <- schmidt_parity. f_equal. unfold rad. field.
Qed.

Lemma north_pole oob nmax P :
  legendre_poly oob nmax 0 = Ok P ->
  forall n m, (m <= n <= nmax)%nat -> P n m = if (m =? 0)%nat then 1 else 0.
Proof.
  intros E n m Hm. destruct (legendre_poly_entries oob nmax 0 P) as [A _]; [lra|exact E|].
  rewrite A by lia. replace (rad 0) with 0 by (unfold rad; field). apply schmidt_pole; lia.
Qed.

Lemma south_pole oob nmax P :
  legendre_poly oob nmax 180 = Ok P ->
  forall n m, (m <= n <= nmax)%nat -> P n m = if (m =? 0)%nat then (-1) ^ n else 0.
Proof.
  intros E n m Hm. destruct (legendre_poly_entries oob nmax 180 P) as [A _]; [lra|exact E|].
  rewrite A by lia. replace (rad 180) with (PI - 0) by (unfold rad; field).
  rewrite schmidt_parity, schmidt_pole by lia. destruct (Nat.eqb_spec m 0) as [->|]; [|ring].
  rewrite Nat.add_0_r. ring.
Qed.

Lemma ex_schmidt_1_0 t : schmidt 1 0 t = cos t.
Proof.
  rewrite (schmidt_sub 0), schmidt_00. cbn. rewrite ?Rplus_0_l, ?Rmult_0_r, ?sqrt_1. try ring.
Qed.
Lemma ex_schmidt_1_1 t : schmidt 1 1 t = sin t. Proof. apply schmidt_11. Qed.
Lemma ex_table : exists P, legendre_poly 0 20 37.5 = Ok P. Proof. eexists. reflexivity. Qed.
Lemma ex_schmidt_2_0 t : schmidt 2 0 t = (3 * cos t ^ 2 - 1) / 2.
Proof.
  rewrite (schmidt_rec 0 0) by lia. rewrite ex_schmidt_1_0, schmidt_00.
  replace (INR (2 * 2 - 0 * 0)) with (2 * 2) by (cbn; ring).
  replace (INR (2 * 2 - 0 * 0 - (2 + 2 - 1))) with 1 by (cbn; ring).
  replace (INR (2 + 2 - 1)) with 3 by (cbn; ring).
  rewrite sqrt_square by lra. rewrite sqrt_1. field.
Qed.
Lemma ex_schmidt_2_1 t : schmidt 2 1 t = sqrt 3 * sin t * cos t.
Proof.
  rewrite (schmidt_sub 1), schmidt_11. replace (INR (1 + 1 + 1)) with 3 by (cbn; ring). ring.
Qed.
