(** The matrices of rotate_gauss are orthogonal; the inverse rotation is the
    transpose. *)
From Coq Require Import Reals List Arith Lia Lra ZArith Bool.
From Coquelicot Require Import Complex.
From Verif Require Import M_Prelude Spec_Legendre Spec_Field Spec_Analysis Spec_Coord M_Coord M_Legendre M_Rotate M_Analysis
  P_Legendre2 P_LegendreTab P_Synth P_Spline P_Quad P_Gauss P_SHC2 P_Analysis P_Coord3 P_RotSH P_RotGauss P_Addition.
Import ListNotations.
Open Scope R_scope.

Definition Yc (n m : nat) (theta phi : R) : R := schmidt n m (rad theta) * cos (INR m * rad phi).
Definition Ys (n m : nat) (theta phi : R) : R := schmidt n m (rad theta) * sin (INR m * rad phi).
Definition Y (i : nat) : R -> R -> R := nth i (lay Yc Ys (S i)) (fun _ _ => 0).

Lemma Y_g n m : (1 <= n)%nat -> (m <= n)%nat -> Y (g_position n m) = Yc n m.
Proof. intros Hn Hm. apply (lay_nth_g Yc Ys); [|exact Hm]. unfold g_position. destruct (Nat.eqb_spec m 0); nia. Qed.
Lemma Y_h n m : (1 <= m <= n)%nat -> Y (h_position n m) = Ys n m.
Proof. intros Hm. apply (lay_nth_h Yc Ys); [|exact Hm]. unfold h_position. nia. Qed.

Lemma dim_mono a b : (a <= b)%nat -> (a * (a + 2) <= b * (b + 2))%nat.
Proof. intros; apply Nat.mul_le_mono; lia. Qed.

Lemma position_cases N i : (i < N * (N + 2))%nat ->
  exists n m, (1 <= n <= N)%nat /\ ((m <= n)%nat /\ i = g_position n m \/ (1 <= m <= n)%nat /\ i = h_position n m).
Proof.
  intros H. assert (I : In i (lay g_position h_position N)) by (rewrite lay_positions; apply in_seq; lia).
  unfold lay in I. apply in_flat_map in I. destruct I as (n & Hn & I). apply in_seq in Hn. exists n.
  destruct I as [<-|I]; [exists 0%nat; split; [lia|left; split; [lia|reflexivity]]|].
  unfold pairs in I. apply in_flat_map in I. destruct I as (m & Hm & I). apply in_seq in Hm. exists m. split; [lia|].
  destruct I as [<-|[<-|[]]]; [left|right]; (split; [lia|reflexivity]).
Qed.

(** degree n is at positions n^2-1 ... (n+1)^2-2 *)
Lemma g_range n m : (1 <= n)%nat -> (m <= n)%nat -> (n * n - 1 <= g_position n m < (n + 1) * (n + 1) - 1)%nat.
Proof. intros. unfold g_position. destruct (Nat.eqb_spec m 0); nia. Qed.
Lemma h_range n m : (1 <= m <= n)%nat -> (n * n - 1 <= h_position n m < (n + 1) * (n + 1) - 1)%nat.
Proof. intros. unfold h_position. nia. Qed.

Lemma lay_ext {A} (u v u' v' : nat -> nat -> A) N :
  (forall n m, (1 <= n <= N)%nat -> (m <= n)%nat -> u n m = u' n m) -> (forall n m, (1 <= n <= N)%nat -> (1 <= m <= n)%nat -> v n m = v' n m) ->
  lay u v N = lay u' v' N.
Proof.
  intros Hu Hv. unfold lay, pairs. rewrite !flat_map_concat_map. f_equal. apply map_ext_in. intros n Hn. apply in_seq in Hn.
  f_equal; [apply Hu; lia|]. rewrite !flat_map_concat_map. f_equal. apply map_ext_in. intros m Hm. apply in_seq in Hm.
  rewrite Hu, Hv by lia. reflexivity.
Qed.

Lemma expand_Y N c theta phi : expand N c theta phi = Rsum (map (fun i => c i * Y i theta phi) (seq 0 (N * (N + 2)))).
Proof.
  rewrite <- lay_positions, lay_map.
  rewrite (lay_ext _ _ (fun n m => c (g_position n m) * Yc n m theta phi) (fun n m => c (h_position n m) * Ys n m theta phi)).
  2:{ intros. rewrite Y_g by lia. reflexivity. }
  2:{ intros. rewrite Y_h by lia. reflexivity. }
  rewrite sum_lay. 2:{ intros n. unfold Ys. change (INR 0) with 0. rewrite Rmult_0_l, sin_0. ring. }
  unfold expand, surface. apply Rsum_map_ext. intros n _. apply Rsum_map_ext. intros m _. unfold Yc, Ys. ring.
Qed.

Lemma Y_unique N c c' : (forall theta phi, Rsum (map (fun i => c i * Y i theta phi) (seq 0 (N * (N + 2)))) = Rsum (map (fun i => c' i * Y i theta phi) (seq 0 (N * (N + 2))))) ->
  forall i, (i < N * (N + 2))%nat -> c i = c' i.
Proof.
  intros H i Hi. destruct (surface_unique N (fun n m => c (g_position n m)) (fun n m => c (h_position n m)) (fun n m => c' (g_position n m)) (fun n m => c' (h_position n m))) as [A B].
  { intros theta phi. pose proof (H theta phi) as E. rewrite <- !expand_Y in E. exact E. }
  destruct (position_cases N i Hi) as (n & m & Hn & [[Hm ->]|[Hm ->]]); [apply A|apply B]; assumption.
Qed.

Lemma Y_direction i t p t' p' : direction t p = direction t' p' -> Y i t p = Y i t' p'.
Proof.
  intros E. destruct (position_cases (S i) i ltac:(nia)) as (n & m & Hn & [[Hm ->]|[Hm ->]]);
    [rewrite Y_g by lia|rewrite Y_h by lia]; unfold Yc, Ys; destruct (harmonic_of_direction n m t p t' p' E) as [A B]; assumption.
Qed.

(** the reproducing kernel *)
Lemma kernel N t p t' p' : Rsum (map (fun i => Y i t p * Y i t' p') (seq 0 (N * (N + 2)))) =
  Rsum (map (fun n => Qf n 0 (vdot (direction t p) (direction t' p'))) (range_incl 1 N)).
Proof.
  rewrite <- (expand_Y N (fun i => Y i t p)). unfold expand, surface. apply Rsum_map_ext. intros n Hn. unfold range_incl in Hn. apply in_seq in Hn.
  transitivity (Qf n 0 (cos (rad t) * cos (rad t') + sin (rad t) * sin (rad t') * cos (rad p - rad p'))).
  - rewrite addition, range_incl_0. apply Rsum_map_ext. intros m Hm. apply in_seq in Hm. rewrite Y_g by lia.
    replace (INR m * (rad p - rad p')) with (INR m * rad p - INR m * rad p') by ring. rewrite cos_minus.
    destruct (Nat.eq_dec m 0) as [->|Nz].
    + unfold Yc. change (INR 0) with 0. rewrite !Rmult_0_l, sin_0. ring.
    + rewrite Y_h by lia. unfold Yc, Ys. ring.
  - f_equal. unfold vdot, direction. cbn [vx vy vz]. rewrite !deg_rad, cos_minus. ring.
Qed.

(** ** What a matrix of rotate_gauss does *)
Definition rot (N K : nat) (b : base) (M : nat -> nat -> R) : Prop :=
  (forall i theta phi, (i < K * (K + 2))%nat -> let q := geo_to_base theta phi b false in
     Rsum (map (fun j => M j i * Y j theta phi) (seq 0 (N * (N + 2)))) = if (i <? N * (N + 2))%nat then Y i (fst q) (snd q) else 0) /\
  (forall n k i j, n <> k -> (1 <= n <= N)%nat -> (1 <= k <= K)%nat -> (n * n - 1 <= j < (n + 1) * (n + 1) - 1)%nat -> (k * k - 1 <= i < (k + 1) * (k + 1) - 1)%nat -> M j i = 0).

Lemma range_position n i : (1 <= n)%nat -> (n * n - 1 <= i < (n + 1) * (n + 1) - 1)%nat ->
  exists m, (m <= n)%nat /\ i = g_position n m \/ (1 <= m <= n)%nat /\ i = h_position n m.
Proof.
  intros Hn Hi. destruct (position_cases n i ltac:(nia)) as (n' & m & Hn' & C). exists m.
  enough (n' = n) as -> by exact C.
  destruct C as [[Hm ->]|[Hm ->]]; [pose proof (g_range n' m ltac:(lia) Hm)|pose proof (h_range n' m Hm)]; nia.
Qed.

Lemma columns_rot nmax kmax C S b :
  (forall k l, (1 <= k <= kmax)%nat -> (l <= k)%nat ->
    holds nmax k (C k l) (fun theta phi => let q := geo_to_base theta phi b false in schmidt k l (rad (fst q)) * cos (INR l * rad (snd q))) /\
    holds nmax k (S k l) (fun theta phi => let q := geo_to_base theta phi b false in schmidt k l (rad (fst q)) * sin (INR l * rad (snd q)))) ->
  rot nmax kmax b (entry (lay C S kmax)).
Proof.
  intros H. split.
  - intros i theta phi Hi q. rewrite <- expand_Y. unfold entry.
    destruct (position_cases kmax i Hi) as (k & l & Hk & [[Hl ->]|[Hl ->]]).
    + rewrite lay_nth_g, Y_g by lia. destruct (H k l Hk Hl) as [A _]. rewrite (expand_holds _ _ _ _ _ _ (proj1 Hk) A). cbv zeta. fold q.
      pose proof (g_range k l ltac:(lia) Hl). unfold Yc.
      destruct (Nat.leb_spec k nmax), (Nat.ltb_spec (g_position k l) (nmax * (nmax + 2))); try reflexivity; nia.
    + rewrite lay_nth_h, Y_h by lia. destruct (H k l Hk ltac:(lia)) as [_ A]. rewrite (expand_holds _ _ _ _ _ _ (proj1 Hk) A). cbv zeta. fold q.
      pose proof (h_range k l Hl). unfold Ys.
      destruct (Nat.leb_spec k nmax), (Nat.ltb_spec (h_position k l) (nmax * (nmax + 2))); try reflexivity; nia.
  - intros n k i j D Hn Hk Hj Hi. unfold entry.
    assert (Z : forall c F, holds nmax k c F -> nth j c 0 = 0).
    { intros c F (g & h & -> & _). destruct (range_position n j ltac:(lia) Hj) as (m & [[Hm ->]|[Hm ->]]).
      - rewrite lay_nth_g by lia. destruct (Nat.eqb_spec n k); [lia|reflexivity].
      - rewrite lay_nth_h by lia. destruct (Nat.eqb_spec n k); [lia|reflexivity]. }
    destruct (range_position k i ltac:(lia) Hi) as (l & [[Hl ->]|[Hl ->]]).
    + rewrite lay_nth_g by lia. eapply Z, (H k l); lia.
    + rewrite lay_nth_h by lia. eapply Z, (H k l); lia.
Qed.

(** ** Consequences *)
Lemma Y_same d c c' : (forall i, (i < d)%nat -> c i = c' i) -> forall theta phi,
  Rsum (map (fun i => c i * Y i theta phi) (seq 0 d)) = Rsum (map (fun i => c' i * Y i theta phi) (seq 0 d)).
Proof. intros H theta phi. apply Rsum_map_ext. intros i Hi. apply in_seq in Hi. rewrite H by lia. reflexivity. Qed.

Lemma Y_pad d d' c theta phi : (d <= d')%nat -> Rsum (map (fun i => c i * Y i theta phi) (seq 0 d)) =
  Rsum (map (fun i => (if (i <? d)%nat then c i else 0) * Y i theta phi) (seq 0 d')).
Proof.
  intros H. replace d' with (d + (d' - d))%nat by lia. rewrite seq_app, map_app, P_Synth.Rsum_app.
  rewrite (Rsum_map_0 _ (seq (0 + d) (d' - d))).
  2:{ intros i Hi. apply in_seq in Hi. destruct (Nat.ltb_spec i d); [lia|ring]. }
  rewrite Rplus_0_r. apply Rsum_map_ext. intros i Hi. apply in_seq in Hi. destruct (Nat.ltb_spec i d); [reflexivity|lia].
Qed.

Lemma degree_exists N i : (i < N * (N + 2))%nat -> exists n, (1 <= n <= N)%nat /\ (n * n - 1 <= i < (n + 1) * (n + 1) - 1)%nat.
Proof.
  intros Hi. destruct (position_cases N i Hi) as (n & m & Hn & [[Hm ->]|[Hm ->]]); exists n; (split; [lia|]);
    [apply g_range|apply h_range]; lia.
Qed.

(** the entries do not depend on the truncation *)
Lemma rot_consistent N K N' K' b M M' : rot N K b M -> rot N' K' b M' -> forall j i,
  (j < N * (N + 2))%nat -> (j < N' * (N' + 2))%nat -> (i < K * (K + 2))%nat -> (i < K' * (K' + 2))%nat -> M j i = M' j i.
Proof.
  intros [A B] [A' B'] j i Hj Hj' Hi Hi'.
  destruct (degree_exists N j Hj) as (n & Hn & Rn). destruct (degree_exists K i Hi) as (k & Hk & Rk).
  assert (Hn' : (1 <= n <= N')%nat) by nia. assert (Hk' : (1 <= k <= K')%nat) by nia.
  destruct (Nat.eq_dec n k) as [->|D]; [|rewrite (B n k i j D Hn Hk Rn Rk), (B' n k i j D Hn' Hk' Rn Rk); reflexivity].
  assert (P : (i < N * (N + 2))%nat) by nia. assert (P' : (i < N' * (N' + 2))%nat) by nia.
  set (d := Nat.max N N').
  assert (E : forall theta phi, Rsum (map (fun j => (if (j <? N * (N + 2))%nat then M j i else 0) * Y j theta phi) (seq 0 (d * (d + 2)))) =
     Rsum (map (fun j => (if (j <? N' * (N' + 2))%nat then M' j i else 0) * Y j theta phi) (seq 0 (d * (d + 2))))).
  { intros theta phi. rewrite <- !(Y_pad _ _ (fun j => _)) by (apply dim_mono; lia).
    specialize (A i theta phi Hi). specialize (A' i theta phi Hi'). cbv zeta in A, A'. rewrite A, A'.
    destruct (Nat.ltb_spec i (N * (N + 2))), (Nat.ltb_spec i (N' * (N' + 2))); try lia. reflexivity. }
  pose proof (Y_unique d _ _ E j) as U. cbv beta in U.
  pose proof (dim_mono N d ltac:(lia)). specialize (U ltac:(lia)).
  destruct (Nat.ltb_spec j (N * (N + 2))), (Nat.ltb_spec j (N' * (N' + 2))); try lia. exact U.
Qed.

Lemma delta_sum d f j : (j < d)%nat -> Rsum (map (fun i => delta j i * f i) (seq 0 d)) = f j.
Proof. intros H. rewrite <- (Rsum_single f d j H). apply Rsum_map_ext. intros i _. unfold delta. rewrite Nat.eqb_sym. reflexivity. Qed.

Lemma q_direction b t p : is_rho b -> let q := geo_to_base t p b false in
  direction (fst q) (snd q) = let '(e1, e2, e3) := b in resolve e1 e2 e3 (direction t p).
Proof.
  destruct b as [[e1 e2] e3]. intros H. cbv zeta. pose proof (geo_to_base_fwd t p e1 e2 e3 H) as W.
  destruct (geo_to_base _ _ _ _) as [t' p']. apply W.
Qed.

Lemma double_unique N (A B : nat -> nat -> R) : let d := (N * (N + 2))%nat in
  (forall t p t' p', Rsum (map (fun j => Rsum (map (fun l => A j l * Y l t' p') (seq 0 d)) * Y j t p) (seq 0 d)) =
                     Rsum (map (fun j => Rsum (map (fun l => B j l * Y l t' p') (seq 0 d)) * Y j t p) (seq 0 d))) ->
  forall j l, (j < d)%nat -> (l < d)%nat -> A j l = B j l.
Proof.
  intros d H j l Hj Hl. apply (Y_unique N (fun l => A j l) (fun l => B j l)); [|exact Hl]. intros t' p'.
  apply (Y_unique N (fun j => Rsum (map (fun l => A j l * Y l t' p') (seq 0 d))) (fun j => Rsum (map (fun l => B j l * Y l t' p') (seq 0 d)))); [|exact Hj].
  intros t p. apply H.
Qed.

(** M M^T = I *)
Lemma rot_rows N b M : is_rho b -> rot N N b M -> forall j l, (j < N * (N + 2))%nat -> (l < N * (N + 2))%nat ->
  Rsum (map (fun i => M j i * M l i) (seq 0 (N * (N + 2)))) = delta j l.
Proof.
  intros Hb [A _]. set (d := (N * (N + 2))%nat) in *.
  apply (double_unique N (fun j l => Rsum (map (fun i => M j i * M l i) (seq 0 d))) delta). intros t p t' p'. fold d.
  assert (E : forall i t p, (i < d)%nat -> Rsum (map (fun j => M j i * Y j t p) (seq 0 d)) =
     Y i (fst (geo_to_base t p b false)) (snd (geo_to_base t p b false))).
  { intros i t0 p0 Hi. rewrite (A i t0 p0 Hi). destruct (Nat.ltb_spec i d); [reflexivity|lia]. }
  transitivity (Rsum (map (fun i => Y i (fst (geo_to_base t p b false)) (snd (geo_to_base t p b false)) * Y i (fst (geo_to_base t' p' b false)) (snd (geo_to_base t' p' b false))) (seq 0 d))).
  - transitivity (Rsum (map (fun j => Rsum (map (fun i => M j i * Y j t p * Y i (fst (geo_to_base t' p' b false)) (snd (geo_to_base t' p' b false))) (seq 0 d))) (seq 0 d))).
    + apply Rsum_map_ext. intros j _.
      transitivity (Y j t p * Rsum (map (fun i => M j i * Y i (fst (geo_to_base t' p' b false)) (snd (geo_to_base t' p' b false))) (seq 0 d))).
      * rewrite Rmult_comm. f_equal.
        transitivity (Rsum (map (fun l => Rsum (map (fun i => M j i * (M l i * Y l t' p')) (seq 0 d))) (seq 0 d))).
        { apply Rsum_map_ext. intros l _. rewrite Rmult_comm, <- Rsum_map_scal. apply Rsum_map_ext. intros; ring. }
        rewrite Rsum_swap. apply Rsum_map_ext. intros i Hi. apply in_seq in Hi. rewrite Rsum_map_scal, E by lia. reflexivity.
      * rewrite <- Rsum_map_scal. apply Rsum_map_ext. intros; ring.
    + rewrite Rsum_swap. apply Rsum_map_ext. intros i Hi. apply in_seq in Hi.
      rewrite <- (E i t p) by lia. rewrite Rmult_comm, <- Rsum_map_scal. apply Rsum_map_ext. intros; ring.
  - unfold d. rewrite kernel, !q_direction by exact Hb. destruct b as [[e1 e2] e3]. rewrite (resolve_dot _ _ _ _ _ Hb).
    rewrite <- kernel. apply Rsum_map_ext. intros j Hj. apply in_seq in Hj. rewrite delta_sum by lia. ring.
Qed.

Lemma inverse_rho b : is_rho b -> is_rho (inverse_axes b).
Proof.
  destruct b as [[e1 e2] e3]. intros H. cbn [inverse_axes is_rho] in *.
  destruct (rho_cyc _ _ _ H) as [C1 C2].
  pose proof (fun u v => resolve_dot e1 e2 e3 u v H) as D.
  destruct H as (_ & _ & _ & _ & _ & _ & C3).
  set (X := V3 1 0 0). set (Y' := V3 0 1 0). set (Z := V3 0 0 1).
  assert (RX : resolve e1 e2 e3 X = V3 (vx e1) (vx e2) (vx e3)) by (unfold resolve, vdot, X; cbn [vx vy vz]; f_equal; ring).
  assert (RY : resolve e1 e2 e3 Y' = V3 (vy e1) (vy e2) (vy e3)) by (unfold resolve, vdot, Y'; cbn [vx vy vz]; f_equal; ring).
  assert (RZ : resolve e1 e2 e3 Z = V3 (vz e1) (vz e2) (vz e3)) by (unfold resolve, vdot, Z; cbn [vx vy vz]; f_equal; ring).
  rewrite <- RX, <- RY, <- RZ. unfold right_handed_orthonormal, unit_vec. rewrite !D.
  split; [|split; [|split; [|split; [|split; [|split]]]]]; try (unfold vdot, X, Y', Z; cbn [vx vy vz]; ring).
  rewrite RX, RY, RZ. destruct e1 as [x1 y1 z1], e2 as [x2 y2 z2], e3 as [x3 y3 z3]. unfold vprod in *. cbn [vx vy vz] in *.
  injection C1 as C1x C1y C1z. injection C2 as C2x C2y C2z. injection C3 as C3x C3y C3z. f_equal; lra.
Qed.

Lemma inverse_inverse b : inverse_axes (inverse_axes b) = b.
Proof. destruct b as [[[? ? ?] [? ? ?]] [? ? ?]]. reflexivity. Qed.

Lemma rot_transpose N b M M' : is_rho b -> rot N N b M -> rot N N (inverse_axes b) M' ->
  forall j i, (j < N * (N + 2))%nat -> (i < N * (N + 2))%nat -> M' i j = M j i.
Proof.
  intros Hb [A _] [A' _] j i Hj Hi. pose proof (inverse_rho b Hb) as Hb'. set (d := (N * (N + 2))%nat) in *. symmetry.
  apply (double_unique N (fun j i => M j i) (fun j i => M' i j)); [|exact Hj|exact Hi]. intros t p t' p'. fold d.
  transitivity (Rsum (map (fun i => Y i (fst (geo_to_base t p b false)) (snd (geo_to_base t p b false)) * Y i t' p') (seq 0 d))).
  - transitivity (Rsum (map (fun j => Rsum (map (fun i => M j i * Y i t' p' * Y j t p) (seq 0 d))) (seq 0 d))).
    { apply Rsum_map_ext. intros l _. rewrite Rmult_comm, <- Rsum_map_scal. apply Rsum_map_ext. intros; ring. }
    rewrite Rsum_swap. apply Rsum_map_ext. intros l Hl. apply in_seq in Hl.
    pose proof (A l t p ltac:(lia)) as E. cbv zeta in E. destruct (Nat.ltb_spec l d); [|lia]. rewrite <- E.
    rewrite Rmult_comm, <- Rsum_map_scal. apply Rsum_map_ext. intros; ring.
  - transitivity (Rsum (map (fun i => Y i t p * Y i (fst (geo_to_base t' p' (inverse_axes b) false)) (snd (geo_to_base t' p' (inverse_axes b) false))) (seq 0 d))).
    + unfold d. rewrite !kernel. apply Rsum_map_ext. intros n _. f_equal. rewrite (q_direction b _ _ Hb), (q_direction (inverse_axes b) _ _ Hb').
      destruct b as [[e1 e2] e3]. unfold inverse_axes, resolve, vdot. cbn [vx vy vz]. ring.
    + apply Rsum_map_ext. intros l Hl. apply in_seq in Hl.
      pose proof (A' l t' p' ltac:(lia)) as E. cbv zeta in E. destruct (Nat.ltb_spec l d); [|lia]. rewrite <- E. ring.
Qed.

(** composition *)
Definition vcompose (e1 e2 e3 w : vec3) : vec3 := vadd (vadd (vscale (vx w) e1) (vscale (vy w) e2)) (vscale (vz w) e3).
Lemma vprod_vcompose e1 e2 e3 u v : right_handed_orthonormal e1 e2 e3 ->
  vprod (vcompose e1 e2 e3 u) (vcompose e1 e2 e3 v) = vcompose e1 e2 e3 (vprod u v).
Proof.
  intros H. destruct (rho_cyc _ _ _ H) as [C1 C2]. destruct H as (_ & _ & _ & _ & _ & _ & C3).
  transitivity (vcompose (vprod e2 e3) (vprod e3 e1) (vprod e1 e2) (vprod u v)); [|rewrite C1, C2, C3; reflexivity].
  unfold vcompose, vadd, vscale, vprod. cbn [vx vy vz]. f_equal; ring.
Qed.

Lemma then_rho b b' : is_rho b -> is_rho b' -> is_rho (axes_along b b').
Proof.
  destruct b as [[e1 e2] e3], b' as [[f1 f2] f3]. cbn [axes_along is_rho]. cbv zeta. fold (vcompose e1 e2 e3 f1) (vcompose e1 e2 e3 f2) (vcompose e1 e2 e3 f3). intros H (U1 & U2 & U3 & A & B & C & P).
  assert (D : forall u v, vdot (vcompose e1 e2 e3 u) (vcompose e1 e2 e3 v) = vdot u v) by (intros; apply compose_dot, H).
  unfold right_handed_orthonormal, unit_vec in *. rewrite !D. repeat (split; [assumption|]).
  rewrite vprod_vcompose by exact H. rewrite P. reflexivity.
Qed.

Lemma rot_compose N b b' M M' M'' : is_rho b -> is_rho b' -> rot N N b M -> rot N N b' M' -> rot N N (axes_along b b') M'' ->
  forall j i, (j < N * (N + 2))%nat -> (i < N * (N + 2))%nat ->
  M'' j i = Rsum (map (fun l => M j l * M' l i) (seq 0 (N * (N + 2)))).
Proof.
  intros Hb Hb' [A _] [A' _] [A'' _] j i Hj Hi. pose proof (then_rho b b' Hb Hb') as Hb''. set (d := (N * (N + 2))%nat) in *.
  apply (Y_unique N (fun j => M'' j i) (fun j => Rsum (map (fun l => M j l * M' l i) (seq 0 d)))); [|exact Hj]. fold d. intros t p.
  rewrite (A'' i t p Hi). destruct (Nat.ltb_spec i d); [|lia].
  transitivity (Rsum (map (fun j => Rsum (map (fun l => M' l i * (M j l * Y j t p)) (seq 0 d))) (seq 0 d))).
  2:{ apply Rsum_map_ext. intros l _. rewrite (Rmult_comm (Rsum _)), <- Rsum_map_scal. apply Rsum_map_ext. intros; ring. }
  rewrite Rsum_swap.
  set (t1 := fst (geo_to_base t p b false)). set (p1 := snd (geo_to_base t p b false)).
  transitivity (Rsum (map (fun l => M' l i * Y l t1 p1) (seq 0 d))).
  2:{ apply Rsum_map_ext. intros l Hl. apply in_seq in Hl. rewrite Rsum_map_scal, (A l t p) by lia. destruct (Nat.ltb_spec l d); [reflexivity|lia]. }
  rewrite (A' i t1 p1 Hi). destruct (Nat.ltb_spec i d); [|lia]. apply Y_direction.
  rewrite (q_direction _ _ _ Hb''), (q_direction b' _ _ Hb'). unfold t1, p1.
  destruct b as [[e1 e2] e3], b' as [[f1 f2] f3]. rewrite (q_direction (e1, e2, e3) _ _ Hb). cbn [axes_along]. cbv zeta.
  set (u := direction t p). unfold resolve, vcompose, vadd, vscale, vdot. cbn [vx vy vz]. f_equal; ring.
Qed.

Lemma rot_identity N M : rot N N (V3 1 0 0, V3 0 1 0, V3 0 0 1) M ->
  forall j i, (j < N * (N + 2))%nat -> (i < N * (N + 2))%nat -> M j i = delta j i.
Proof.
  intros [A _] j i Hj Hi. set (d := (N * (N + 2))%nat) in *.
  apply (Y_unique N (fun j => M j i) (fun j => delta j i)); [|exact Hj]. fold d. intros t p.
  assert (Hb : is_rho (V3 1 0 0, V3 0 1 0, V3 0 0 1)).
  { cbn. unfold right_handed_orthonormal, unit_vec, vdot, vprod. cbn [vx vy vz]. repeat split; try ring. f_equal; ring. }
  rewrite (A i t p Hi). destruct (Nat.ltb_spec i d); [|lia].
  transitivity (Y i t p).
  - apply Y_direction. rewrite (q_direction _ _ _ Hb). unfold resolve, vdot. destruct (direction t p) as [x y z]. cbn [vx vy vz]. f_equal; ring.
  - symmetry. rewrite <- (delta_sum d (fun l => Y l t p) i Hi). apply Rsum_map_ext. intros l _. unfold delta. rewrite Nat.eqb_sym. reflexivity.
Qed.

(** ** Existence, and M^T M = I *)
Lemma rot_exists N b : (1 <= N)%nat -> is_rho b -> exists M, rot N N b M.
Proof.
  intros HN Hb. set (nt := ((N + N + 1) / 2 + 1)%nat).
  destruct (gauss_rule_exists nt ltac:(lia)) as (x & w & G).
  destruct (grid_tables 0 N nt x w HN G) as (Pnm & _ & L & HP).
  destruct (rotate_columns_ok 0 N N x w Pnm b HN G L HP Hb) as (C & S & _ & H).
  exists (entry (lay C S N)). apply columns_rot, H.
Qed.

Lemma rot_cols N b M : (1 <= N)%nat -> is_rho b -> rot N N b M -> forall i l, (i < N * (N + 2))%nat -> (l < N * (N + 2))%nat ->
  Rsum (map (fun j => M j i * M j l) (seq 0 (N * (N + 2)))) = delta i l.
Proof.
  intros HN Hb R i l Hi Hl. pose proof (inverse_rho b Hb) as Hb'. destruct (rot_exists N _ HN Hb') as [M' R'].
  rewrite <- (rot_rows N _ M' Hb' R' i l Hi Hl). apply Rsum_map_ext. intros j Hj. apply in_seq in Hj.
  rewrite (rot_transpose N b M M' Hb R R' j i), (rot_transpose N b M M' Hb R R' j l) by lia. reflexivity.
Qed.

Lemma block_sum f n d : (1 <= n)%nat -> ((n + 1) * (n + 1) - 1 <= d)%nat ->
  (forall i, (i < d)%nat -> ~ (n * n - 1 <= i < (n + 1) * (n + 1) - 1)%nat -> f i = 0) ->
  Rsum (map f (seq 0 d)) = Rsum (map f (seq (n * n - 1) (2 * n + 1))).
Proof.
  intros Hn Hd Z. replace d with ((n * n - 1) + ((2 * n + 1) + (d - ((n + 1) * (n + 1) - 1))))%nat by nia.
  rewrite !seq_app, !map_app, !P_Synth.Rsum_app. cbn [Nat.add].
  rewrite (Rsum_map_0 f (seq 0 _)), (Rsum_map_0 f (seq (n * n - 1 + (2 * n + 1)) _)).
  - ring.
  - intros i Hi. apply in_seq in Hi. apply Z; [|lia]. assert ((n + 1) * (n + 1) = n * n + 2 * n + 1)%nat by ring. nia.
  - intros i Hi. apply in_seq in Hi. apply Z; nia.
Qed.

Lemma block_positions n : (1 <= n)%nat -> seq (n * n - 1) (2 * n + 1) = g_position n 0 :: pairs (g_position n) (h_position n) 1 n.
Proof.
  intros Hn. destruct n as [|n]; [lia|]. pose proof (lay_positions (S n)) as E. rewrite lay_S, lay_positions in E.
  replace (S n * (S n + 2))%nat with (n * (n + 2) + (2 * S n + 1))%nat in E by lia. rewrite seq_app in E. apply app_inv_head in E.
  rewrite E. f_equal; lia.
Qed.

Lemma degree_power_block l n : (1 <= n)%nat -> degree_power l n = Rsum (map (fun i => nth i l 0 ^ 2) (seq (n * n - 1) (2 * n + 1))).
Proof.
  intros Hn. rewrite block_positions by exact Hn. cbn [map]. rewrite Rsum_cons.
  assert (P : forall a k, (1 <= a)%nat -> Rsum (map (fun i => nth i l 0 ^ 2) (pairs (g_position n) (h_position n) a k)) =
     Rsum (map (fun m => nth (g_position n m) l 0 ^ 2 + (if Nat.eqb m 0 then 0 else nth (h_position n m) l 0 ^ 2)) (seq a k))).
  { intros a k. revert a. induction k as [|k IH]; intros a Ha; [reflexivity|].
    change (pairs ?u ?v a (S k)) with (u a :: v a :: pairs u v (S a) k). cbn [map seq]. rewrite !Rsum_cons, IH by lia.
    destruct (Nat.eqb_spec a 0); [lia|]. ring. }
  rewrite P by lia. unfold degree_power. rewrite range_incl_0. cbn [seq map]. rewrite Rsum_cons. cbn [Nat.eqb]. ring.
Qed.

Lemma rot_power N K b M v n : is_rho b -> rot N K b M -> List.length v = (K * (K + 2))%nat -> (1 <= n <= Nat.min N K)%nat ->
  degree_power (map (times M v) (seq 0 (N * (N + 2)))) n = degree_power v n.
Proof.
  intros Hb R Lv Hn. destruct (rot_exists n b ltac:(lia) Hb) as [M0 R0]. rewrite !degree_power_block by lia.
  set (bl := seq (n * n - 1) (2 * n + 1)).
  assert (HN : ((n + 1) * (n + 1) - 1 <= N * (N + 2))%nat) by nia.
  assert (HK : ((n + 1) * (n + 1) - 1 <= K * (K + 2))%nat) by nia.
  assert (Hbl : forall i, In i bl -> (n * n - 1 <= i < (n + 1) * (n + 1) - 1)%nat) by (intros i Hi; apply in_seq in Hi; nia).
  assert (W : forall r, In r bl -> times M v r = Rsum (map (fun c => M0 r c * nth c v 0) bl)).
  { intros r Hr. apply Hbl in Hr. unfold times. rewrite Lv, (block_sum _ n).
    - apply Rsum_map_ext. intros c Hc. apply Hbl in Hc. rewrite (rot_consistent N K n n b M M0 R R0) by nia. reflexivity.
    - lia.
    - exact HK.
    - intros i Hi Ni. destruct R as [_ B]. destruct (degree_exists K i Hi) as (k & Hk & Rk).
      rewrite (B n k i r); [ring| |lia|exact Hk|exact Hr|exact Rk]. intros ->. apply Ni, Rk. }
  transitivity (Rsum (map (fun r => Rsum (map (fun c => M0 r c * nth c v 0) bl) ^ 2) bl)).
  { apply Rsum_map_ext. intros r Hr. rewrite <- (W r Hr). apply Hbl in Hr.
    rewrite (nth_indep _ 0 (times M v 0)) by (rewrite map_length, seq_length; lia). rewrite map_nth, seq_nth by lia. reflexivity. }
  assert (O : forall c c', In c bl -> In c' bl -> Rsum (map (fun r => M0 r c * M0 r c') bl) = delta c c').
  { intros c c' Hc Hc'. apply Hbl in Hc, Hc'. rewrite <- (rot_cols n b M0 ltac:(lia) Hb R0 c c') by nia. symmetry. apply block_sum; [lia|nia|].
    intros i Hi Ni. destruct R0 as [_ B]. destruct (degree_exists n i Hi) as (k & Hk & Rk).
    rewrite (B k n c i); [ring| |exact Hk|lia|exact Rk|exact Hc]. intros ->. apply Ni, Rk. }
  transitivity (Rsum (map (fun c => Rsum (map (fun c' => nth c v 0 * nth c' v 0 * delta c c') bl)) bl)).
  - transitivity (Rsum (map (fun r => Rsum (map (fun c => Rsum (map (fun c' => nth c v 0 * nth c' v 0 * (M0 r c * M0 r c')) bl)) bl)) bl)).
    + apply Rsum_map_ext. intros r _. cbn [pow]. rewrite Rmult_1_r, <- Rsum_map_scal. apply Rsum_map_ext. intros c _.
      rewrite Rmult_comm, <- Rsum_map_scal. apply Rsum_map_ext. intros; ring.
    + rewrite Rsum_swap. apply Rsum_map_ext. intros c Hc. rewrite Rsum_swap. apply Rsum_map_ext. intros c' Hc'.
      rewrite Rsum_map_scal, O by assumption. reflexivity.
  - apply Rsum_map_ext. intros c Hc. apply in_seq in Hc.
    transitivity (Rsum (map (fun c' => nth c v 0 * nth c' v 0 * delta c c') (seq 0 ((n + 1) * (n + 1) - 1)))).
    + symmetry. apply block_sum; [lia|lia|]. intros i _ Ni. unfold delta. destruct (Nat.eqb_spec c i); [|ring]. subst. exfalso. apply Ni. nia.
    + rewrite (Rsum_map_ext _ (fun c' => delta c c' * (nth c v 0 * nth c' v 0))) by (intros; ring). rewrite delta_sum by nia. ring.
Qed.

(** degrees beyond the input are zero *)
Lemma rot_above N K b M v i : rot N K b M -> List.length v = (K * (K + 2))%nat -> (K * (K + 2) <= i < N * (N + 2))%nat -> times M v i = 0.
Proof.
  intros [_ B] Lv Hi. unfold times. apply Rsum_map_0. intros c Hc. apply in_seq in Hc. rewrite Lv in Hc.
  destruct (degree_exists K c ltac:(lia)) as (k & Hk & Rk). destruct (degree_exists N i ltac:(lia)) as (n & Hn & Rn).
  rewrite (B n k c i); [ring| |exact Hn|exact Hk|exact Rn|exact Rk]. intros ->. nia.
Qed.
