(** rotate_gauss returns the matrices that change the axes of a spherical
    harmonic expansion. *)
From Coq Require Import Reals List Arith Lia Lra ZArith Bool.
From Coquelicot Require Import Complex.
From Verif Require Import M_Prelude Spec_Legendre Spec_Field Spec_Analysis Spec_Coord M_Coord M_Legendre M_Rotate M_Analysis
  P_Legendre2 P_LegendreTab P_Synth P_Spline P_Quad P_SHC2 P_Analysis P_Coord3 P_RotSH.
Import ListNotations.
Open Scope R_scope.

(** ** The order of the coefficients *)
Section Layout.
Context {A : Type}.
Definition pairs (u v : nat -> A) (a n : nat) : list A := flat_map (fun m => [u m; v m]) (seq a n).
Definition lay (u v : nat -> nat -> A) (N : nat) : list A :=
  flat_map (fun n => u n 0%nat :: pairs (u n) (v n) 1 n) (seq 1 N).

Lemma pairs_length u v a n : List.length (pairs u v a n) = (2 * n)%nat.
Proof. unfold pairs. revert a. induction n as [|n IH]; intros a; cbn [seq flat_map app List.length]; [reflexivity|]. rewrite IH. lia. Qed.

Lemma pairs_nth u v d n : forall a i, (i < n)%nat ->
  nth (2 * i) (pairs u v a n) d = u (a + i)%nat /\ nth (2 * i + 1) (pairs u v a n) d = v (a + i)%nat.
Proof.
  induction n as [|n IH]; intros a i Hi; [lia|].
  change (pairs u v a (S n)) with (u a :: v a :: pairs u v (S a) n).
  destruct i as [|i]; [rewrite Nat.add_0_r; split; reflexivity|].
  replace (2 * S i)%nat with (S (S (2 * i))) by lia. replace (S (S (2 * i)) + 1)%nat with (S (S (2 * i + 1))) by lia.
  cbn [nth]. destruct (IH (S a) i ltac:(lia)) as [-> ->]. split; f_equal; lia.
Qed.

Lemma lay_S u v N : lay u v (S N) = (lay u v N ++ u (S N) 0%nat :: pairs (u (S N)) (v (S N)) 1 (S N))%list.
Proof. unfold lay. rewrite seq_S, flat_map_app. cbn [flat_map Nat.add]. rewrite app_nil_r. reflexivity. Qed.

Lemma lay_length u v N : List.length (lay u v N) = (N * (N + 2))%nat.
Proof.
  induction N as [|N IH]; [reflexivity|]. rewrite lay_S, app_length, IH. cbn [List.length]. rewrite pairs_length. nia.
Qed.

Lemma lay_nth_g u v d N n m : (1 <= n <= N)%nat -> (m <= n)%nat -> nth (g_position n m) (lay u v N) d = u n m.
Proof.
  induction N as [|N IH]; intros Hn Hm; [lia|]. rewrite lay_S.
  destruct (Nat.eq_dec n (S N)) as [->|E].
  - rewrite app_nth2; rewrite lay_length; unfold g_position.
    + destruct (Nat.eqb_spec m 0) as [->|Hm0].
      * replace (S N * S N - 1 - N * (N + 2))%nat with 0%nat by nia. reflexivity.
      * replace (S N * S N + 2 * m - 2 - N * (N + 2))%nat with (S (2 * (m - 1)))%nat by nia. cbn [nth].
        rewrite (proj1 (pairs_nth _ _ d (S N) 1 (m - 1) ltac:(lia))). f_equal. lia.
    + destruct (Nat.eqb_spec m 0); nia.
  - rewrite app_nth1; [apply IH; lia|]. rewrite lay_length. unfold g_position. destruct (Nat.eqb_spec m 0); nia.
Qed.

Lemma lay_nth_h u v d N n m : (1 <= n <= N)%nat -> (1 <= m <= n)%nat -> nth (h_position n m) (lay u v N) d = v n m.
Proof.
  induction N as [|N IH]; intros Hn Hm; [lia|]. rewrite lay_S.
  destruct (Nat.eq_dec n (S N)) as [->|E].
  - rewrite app_nth2; rewrite lay_length; unfold h_position.
    + replace (S N * S N - 1 + 2 * m - N * (N + 2))%nat with (S (2 * (m - 1) + 1))%nat by nia. cbn [nth].
      rewrite (proj2 (pairs_nth _ _ d (S N) 1 (m - 1) ltac:(lia))). f_equal. lia.
    + nia.
  - rewrite app_nth1; [apply IH; lia|]. rewrite lay_length. unfold h_position. nia.
Qed.
End Layout.

Lemma lay_map {A B} (f : A -> B) u v N : map f (lay u v N) = lay (fun n m => f (u n m)) (fun n m => f (v n m)) N.
Proof.
  assert (P : forall (u v : nat -> A) a n, map f (pairs u v a n) = pairs (fun m => f (u m)) (fun m => f (v m)) a n).
  { intros u0 v0 a n. revert a. induction n as [|n IH]; intros a; [reflexivity|]. cbn. f_equal. f_equal. apply IH. }
  induction N as [|N IH]; [reflexivity|]. rewrite !lay_S, map_app, IH. cbn [map]. rewrite P. reflexivity.
Qed.

Lemma gauss_lay N g h : gauss_list 1 N N g h = lay g h N.
Proof. symmetry. apply gauss_flat; reflexivity. Qed.

Lemma lay_positions N : lay g_position h_position N = seq 0 (N * (N + 2)).
Proof.
  induction N as [|N IH]; [reflexivity|]. rewrite lay_S, IH.
  replace (S N * (S N + 2))%nat with (N * (N + 2) + S (2 * S N))%nat by lia. rewrite seq_app. f_equal. cbn [seq].
  f_equal; [unfold g_position; cbn [Nat.eqb]; nia|]. rewrite Nat.add_0_l.
  assert (P : forall k a, (1 <= a)%nat -> (a + k <= S (S N))%nat ->
     pairs (g_position (S N)) (h_position (S N)) a k = seq (N * (N + 2) + (2 * a - 1)) (2 * k)).
  { induction k as [|k IHk]; intros a Ha Hk; [reflexivity|].
    change (pairs ?u ?v a (S k)) with (u a :: v a :: pairs u v (S a) k). rewrite IHk by lia.
    replace (2 * S k)%nat with (S (S (2 * k))) by lia. cbn [seq].
    unfold g_position, h_position. destruct (Nat.eqb_spec a 0); [lia|]. f_equal; [nia|]. f_equal; [nia|]. f_equal. nia. }
  rewrite P by lia. f_equal. lia.
Qed.

Lemma sum_pairs (u v : nat -> R) a n : Rsum (pairs u v a n) = Rsum (map (fun m => u m + v m) (seq a n)).
Proof.
  unfold pairs. revert a. induction n as [|n IH]; intros a; cbn [seq flat_map app map]; rewrite ?Rsum_cons; [reflexivity|]. rewrite IH. ring.
Qed.

Lemma sum_lay (u v : nat -> nat -> R) N : (forall n, v n 0%nat = 0) ->
  Rsum (lay u v N) = Rsum (map (fun n => Rsum (map (fun m => u n m + v n m) (range_incl 0 n))) (range_incl 1 N)).
Proof.
  intros Hv. unfold range_incl at 2. replace (N + 1 - 1)%nat with N by lia. unfold lay.
  generalize (seq 1 N). intros l. induction l as [|n l IH]; [reflexivity|].
  cbn [flat_map map]. rewrite P_Synth.Rsum_app, !Rsum_cons, IH, sum_pairs, range_incl_0. cbn [seq map]. rewrite Rsum_cons, Hv. ring.
Qed.

Lemma surface_ext lo N g h g' h' theta phi :
  (forall n m, (lo <= n <= N)%nat -> (m <= n)%nat -> g n m = g' n m) ->
  (forall n m, (lo <= n <= N)%nat -> (1 <= m <= n)%nat -> h n m = h' n m) ->
  surface lo N g h theta phi = surface lo N g' h' theta phi.
Proof.
  intros Hg Hh. unfold surface. apply Rsum_map_ext. intros n Hn. apply in_seq in Hn.
  apply Rsum_map_ext. intros m Hm. apply in_seq in Hm. rewrite Hg by lia. f_equal. f_equal.
  destruct m as [|m]; [rewrite Rmult_0_l, sin_0; ring|]. rewrite Hh by lia. reflexivity.
Qed.

Lemma surface_hsum lo N g h theta phi :
  surface lo N g h theta phi = Rsum (map (fun n => hsum n (g n) (h n) (rad theta) (rad phi)) (range_incl lo N)).
Proof. unfold surface, hsum. apply Rsum_map_ext. intros n _. rewrite range_incl_0. reflexivity. Qed.

Lemma expand_sum {B} N (c : B -> nat -> R) (a : B -> R) (l : list B) theta phi :
  expand N (fun i => Rsum (map (fun b => a b * c b i) l)) theta phi = Rsum (map (fun b => a b * expand N (c b) theta phi) l).
Proof.
  unfold expand, surface. induction l as [|b l IH].
  - cbn [map]. change (Rsum []) with 0. apply Rsum_map_0. intros n _. apply Rsum_map_0. intros; ring.
  - cbn [map]. rewrite Rsum_cons, <- IH, <- Rsum_map_scal, <- Rsum_map_plus. apply Rsum_map_ext. intros n _.
    rewrite <- Rsum_map_scal, <- Rsum_map_plus. apply Rsum_map_ext. intros m _. rewrite !Rsum_cons. ring.
Qed.

(** ** One column *)
Lemma column_exact nt N K nmax x w Pnm (F : nat -> nat -> R) g h :
  gauss_rule nt x w -> List.length Pnm = nt ->
  (forall d i n m, (i < nt)%nat -> (m <= n <= nmax)%nat -> nth i Pnm d n m = schmidt n m (acos (nth i x 0))) ->
  (forall i j, (i < nt)%nat -> (j < N)%nat -> F i j = surface K K g h (np_degrees (acos (nth i x 0))) (grid_phi N j)) ->
  (nmax + K <= 2 * nt - 1)%nat -> (nmax + K < N)%nat ->
  column nmax (combine (combine Pnm w) (map (fun i => fft_over_N N (F i)) (seq 0 nt))) =
  lay (fun n m => if Nat.eqb n K then g n m else 0) (fun n m => if Nat.eqb n K then h n m else 0) nmax.
Proof.
  intros G LP TP EF Hd HN. unfold column, lay, pairs.
  assert (PE := fun n m Hm H1 H2 => project_exact nt N K K nmax x w Pnm F g h G LP TP EF n m Hm H1 H2).
  assert (I : forall n, ((K <=? n) && (n <=? K))%nat = Nat.eqb n K).
  { intros n. destruct (Nat.leb_spec K n), (Nat.leb_spec n K), (Nat.eqb_spec n K); try reflexivity; lia. }
  rewrite !flat_map_concat_map. f_equal. apply map_ext_in. intros n Hn. apply in_seq in Hn.
  pose proof (pos_INR n) as Pn.
  assert (P2 : 2 / (2 * INR n + 1) <> 0) by (apply Rmult_integral_contrapositive_currified; [lra|apply Rinv_neq_0_compat; lra]).
  assert (P4 : 4 / (2 * INR n + 1) <> 0) by (apply Rmult_integral_contrapositive_currified; [lra|apply Rinv_neq_0_compat; lra]).
  cbn [Nat.eqb]. f_equal.
  - rewrite PE, Cdiv_real by (lia || exact P2). rewrite I. cbn [fst]. field. lra.
  - rewrite !flat_map_concat_map. f_equal. apply map_ext_in. intros m Hm. apply in_seq in Hm.
    rewrite PE by lia. rewrite I. destruct (Nat.eqb_spec m 0) as [E|E]; [lia|].
    replace (Cmult (RtoC 2) _) with ((2 * ((if Nat.eqb n K then g n m else 0) * (2 / (2 * INR n + 1))), 2 * (- (if Nat.eqb n K then h n m else 0) * (2 / (2 * INR n + 1)))) : C)
      by (unfold Cmult, RtoC; cbn [fst snd]; f_equal; ring).
    rewrite Cdiv_real by exact P4. cbn [fst snd]. f_equal; [field; lra|]. f_equal. field. lra.
Qed.

(** what it means for a column to hold the coefficients of a function F of
    the direction *)
Definition holds (nmax k : nat) (c : list R) (F : R -> R -> R) : Prop :=
  (exists g h, c = lay (fun n m => if Nat.eqb n k then g n m else 0) (fun n m => if Nat.eqb n k then h n m else 0) nmax /\
     forall theta phi, F theta phi = surface k k g h theta phi).

Lemma expand_holds nmax k c F theta phi : (1 <= k)%nat -> holds nmax k c F ->
  expand nmax (fun i => nth i c 0) theta phi = if (k <=? nmax)%nat then F theta phi else 0.
Proof.
  intros Hk (g & h & -> & E). rewrite E. unfold expand.
  rewrite (surface_ext 1 nmax _ _ (fun n m => if Nat.eqb n k then g n m else 0) (fun n m => if Nat.eqb n k then h n m else 0)).
  2:{ intros n m Hn Hm. apply (lay_nth_g (fun n m => if Nat.eqb n k then g n m else 0)); lia. }
  2:{ intros n m Hn Hm. apply (lay_nth_h _ (fun n m => if Nat.eqb n k then h n m else 0)); lia. }
  rewrite !surface_hsum. unfold range_incl at 2. replace (k + 1 - k)%nat with 1%nat by lia. cbn [seq map]. rewrite Rsum_cons.
  change (Rsum []) with 0. rewrite Rplus_0_r. unfold range_incl. replace (nmax + 1 - 1)%nat with nmax by lia.
  rewrite <- (Rmult_1_l (hsum k _ _ _ _)).
  transitivity (Rsum (map (fun n => (if Nat.eqb n k then 1 else 0) * hsum n (g n) (h n) (rad theta) (rad phi)) (seq 1 nmax))).
  - apply Rsum_map_ext. intros n _. destruct (Nat.eqb n k); [rewrite Rmult_1_l; reflexivity|].
    rewrite Rmult_0_l. apply Rsum_map_0. intros; ring.
  - rewrite (sum_pick (fun n => hsum n (g n) (h n) (rad theta) (rad phi))).
    destruct (Nat.leb_spec 1 k), (Nat.ltb_spec k (1 + nmax)), (Nat.leb_spec k nmax); cbn [andb]; try lia; ring.
Qed.

(** ** Harmonics in rotated axes *)
Lemma deg_rad t : deg t = rad t.
Proof. unfold deg, rad. field. Qed.

Lemma rotated_is_harmonic b k l : is_rho b -> (l <= k)%nat -> forall tr, tr = cos \/ tr = sin ->
  exists g h, forall theta phi, let q := geo_to_base theta phi b false in
    schmidt k l (rad (fst q)) * tr (INR l * rad (snd q)) = surface k k g h theta phi.
Proof.
  destruct b as [[e1 e2] e3]. intros H Hl tr Htr. cbn [is_rho] in H.
  set (q := fun t p => geo_to_base (np_degrees t) (np_degrees p) (e1, e2, e3) false).
  assert (D : forall t p, direction (fst (q t p)) (snd (q t p)) = resolve e1 e2 e3 (direction (np_degrees t) (np_degrees p))).
  { intros t p. pose proof (geo_to_base_fwd (np_degrees t) (np_degrees p) e1 e2 e3 H) as W. unfold q.
    destruct (geo_to_base _ _ _ _) as [t' p']. apply W. }
  pose proof H as (U1 & U2 & U3 & O1 & O2 & O3 & _). unfold unit_vec, vdot in *.
  destruct (harmonics_rotated k (vx e1) (vy e1) (vz e1) (vx e2) (vy e2) (vz e2) (vx e3) (vy e3) (vz e3) U1 U2 U3 O1 O2 O3
    (fun t p => rad (fst (q t p))) (fun t p => rad (snd (q t p)))) with (l := l) as [HC HS].
  1-3: intros t p; specialize (D t p); unfold direction, resolve in D; rewrite !deg_rad, !rad_degrees in D;
       injection D as D1 D2 D3; unfold vdot in D1, D2, D3; cbn [vx vy vz] in D1, D2, D3; assumption.
  1: exact Hl.
  assert (X : forall theta phi, q (rad theta) (rad phi) = geo_to_base theta phi (e1, e2, e3) false).
  { intros. unfold q. f_equal; unfold np_degrees, rad; field; apply PI_neq0. }
  assert (Y : forall u v theta phi, surface k k (fun _ => u) (fun _ => v) theta phi = hsum k u v (rad theta) (rad phi)).
  { intros. rewrite surface_hsum. unfold range_incl. replace (k + 1 - k)%nat with 1%nat by lia. cbn [seq map].
    rewrite Rsum_cons. change (Rsum []) with 0. ring. }
  destruct Htr as [->| ->].
  - destruct HC as (g & h & E). exists (fun _ => g), (fun _ => h). intros theta phi. cbv zeta. rewrite Y, <- E, X. reflexivity.
  - destruct HS as (g & h & E). exists (fun _ => g), (fun _ => h). intros theta phi. cbv zeta. rewrite Y, <- E, X. reflexivity.
Qed.

(** a harmonic depends on the direction only *)
Lemma harmonic_of_direction k l t p t' p' : direction t p = direction t' p' ->
  schmidt k l (rad t) * cos (INR l * rad p) = schmidt k l (rad t') * cos (INR l * rad p') /\
  schmidt k l (rad t) * sin (INR l * rad p) = schmidt k l (rad t') * sin (INR l * rad p').
Proof.
  intros E. unfold direction in E. rewrite !deg_rad in E. injection E as E1 E2 E3.
  assert (P : forall t p, Cmult (RtoC (sin t ^ l)) (ex (Z.of_nat l) p) = cpow ((sin t * cos p, sin t * sin p) : C) l).
  { intros a b. replace ((sin a * cos b, sin a * sin b) : C) with (Cmult (RtoC (sin a)) (ex 1 b)).
    - rewrite cpow_mult, cpow_real, ex_pow, Z.mul_1_r. reflexivity.
    - unfold ex, Cmult, RtoC. cbn [fst snd]. rewrite Rmult_1_l. f_equal; ring. }
  assert (Q : Cmult (RtoC (sin (rad t) ^ l)) (ex (Z.of_nat l) (rad p)) = Cmult (RtoC (sin (rad t') ^ l)) (ex (Z.of_nat l) (rad p'))).
  { rewrite !P, E1, E2. reflexivity. }
  unfold ex, Cmult, RtoC in Q. cbn [fst snd] in Q. rewrite <- !INR_IZR_INZ in Q. injection Q as Q1 Q2.
  rewrite !schmidt_Q, E3. split.
  - transitivity (cn k l * Qf k l (cos (rad t')) * (sin (rad t) ^ l * cos (INR l * rad p) - 0 * sin (INR l * rad p))); [ring|]. rewrite Q1. ring.
  - transitivity (cn k l * Qf k l (cos (rad t')) * (sin (rad t) ^ l * sin (INR l * rad p) + 0 * cos (INR l * rad p))); [ring|]. rewrite Q2. ring.
Qed.

(** ** The matrices *)
Lemma mapM_map {A B} (f : A -> result B) (g : A -> B) l : (forall a, In a l -> f a = Ok (g a)) -> mapM f l = Ok (map g l).
Proof.
  induction l as [|a l IH]; intros H; [reflexivity|]. cbn. rewrite H by (left; reflexivity). cbn [bind].
  rewrite IH by (intros; apply H; right; assumption). reflexivity.
Qed.

Lemma nth_map_in {A B} (f : A -> B) l i d d' : (i < List.length l)%nat -> nth i (map f l) d = f (nth i l d').
Proof. intros H. rewrite (nth_indep _ d (f d')) by (rewrite map_length; exact H). apply map_nth. Qed.

Lemma rotate_columns_ok oob nmax kmax x w Pnm b :
  let nt := ((nmax + kmax + 1) / 2 + 1)%nat in
  (1 <= kmax)%nat -> gauss_rule nt x w -> List.length Pnm = nt ->
  (forall d i n m, (i < nt)%nat -> (m <= n <= nmax)%nat -> nth i Pnm d n m = schmidt n m (acos (nth i x 0))) ->
  is_rho b ->
  exists C S, rotate_columns oob nmax kmax (2 * nt) (grid_theta x) Pnm w b = Ok (lay C S kmax) /\
  forall k l, (1 <= k <= kmax)%nat -> (l <= k)%nat ->
    holds nmax k (C k l) (fun theta phi => let q := geo_to_base theta phi b false in schmidt k l (rad (fst q)) * cos (INR l * rad (snd q))) /\
    holds nmax k (S k l) (fun theta phi => let q := geo_to_base theta phi b false in schmidt k l (rad (fst q)) * sin (INR l * rad (snd q))).
Proof.
  intros nt Hk1 G LP TP Hb. unfold rotate_columns. set (N := (2 * nt)%nat). cbv zeta.
  assert (Hnt : (nmax + kmax <= 2 * nt - 1)%nat /\ (nmax + kmax < N)%nat).
  { unfold N, nt. pose proof (Nat.div_mod (nmax + kmax + 1) 2 ltac:(lia)). pose proof (Nat.mod_upper_bound (nmax + kmax + 1) 2 ltac:(lia)). lia. }
  clearbody nt. pose proof G as (Lx & _ & _ & _).
  set (ref := map (fun t => map (fun j => geo_to_base t (grid_phi N j) b false) (seq 0 N)) (grid_theta x)).
  set (tb := fun p : R * R => match legendre_poly oob kmax (fst p) with Ok P => P | Err _ => fun _ _ => oob end).
  assert (TB : forall t p, legendre_poly oob kmax (fst (geo_to_base t p b false)) = Ok (tb (geo_to_base t p b false)) /\
     forall n m, (m <= n <= kmax)%nat -> tb (geo_to_base t p b false) n m = schmidt n m (rad (fst (geo_to_base t p b false)))).
  { intros t p. destruct b as [[e1 e2] e3]. pose proof (geo_to_base_fwd t p e1 e2 e3 Hb) as W.
    unfold tb. destruct (geo_to_base t p (e1, e2, e3) false) as [t' p']. cbn [fst]. destruct W as (_ & W & _).
    destruct (legendre_poly_ok oob kmax t' Hk1 W) as (P & -> & A & _). split; [reflexivity|exact A]. }
  assert (EM : mapM (fun row => mapM (fun p => legendre_poly oob kmax (fst p)) row) ref = Ok (map (map tb) ref)).
  { apply mapM_map. intros row Hrow. apply in_map_iff in Hrow. destruct Hrow as (t & <- & _).
    apply mapM_map. intros p Hp. apply in_map_iff in Hp. destruct Hp as (j & <- & _). apply TB. }
  rewrite EM. cbn [bind].
  assert (LT : List.length (grid_theta x) = nt) by (unfold grid_theta; rewrite map_length; exact Lx).
  rewrite LT.
  set (sh := fun (trig : R -> R) k ll i j => nth j (nth i (map (map tb) ref) []) (fun _ _ : nat => oob) k ll *
                  trig (np_radians (INR ll * snd (nth j (nth i ref []) (oob, oob))))).
  set (nodes := fun (trig : R -> R) k ll => combine (combine Pnm w) (map (fun i => fft_over_N N (sh trig k ll i)) (seq 0 nt))).
  exists (fun k l => column nmax (nodes cos k l)), (fun k l => column nmax (nodes sin k l)). split; [reflexivity|].
  assert (SH : forall trig k l i j, (l <= k <= kmax)%nat -> (i < nt)%nat -> (j < N)%nat ->
     sh trig k l i j = (let q := geo_to_base (np_degrees (acos (nth i x 0))) (grid_phi N j) b false in
        schmidt k l (rad (fst q)) * trig (INR l * rad (snd q)))).
  { intros trig k l i j Hl Hi Hj. unfold sh.
    assert (R1 : nth i ref [] = map (fun j => geo_to_base (np_degrees (acos (nth i x 0))) (grid_phi N j) b false) (seq 0 N)).
    { unfold ref. rewrite (nth_map_in _ (grid_theta x) i [] 0) by lia. rewrite grid_theta_nth by lia. reflexivity. }
    rewrite (nth_map_in (map tb) ref i [] []) by (unfold ref; rewrite map_length; lia). rewrite R1, map_map.
    rewrite (nth_map_in _ (seq 0 N) j _ 0%nat) by (rewrite seq_length; exact Hj).
    rewrite (nth_map_in _ (seq 0 N) j (oob, oob) 0%nat) by (rewrite seq_length; exact Hj).
    rewrite seq_nth by exact Hj. cbn [Nat.add]. rewrite (proj2 (TB _ _)) by exact Hl. cbv zeta.
    f_equal. f_equal. unfold np_radians, rad. field. }
  assert (HH : forall trig k l, trig = cos \/ trig = sin -> (1 <= k <= kmax)%nat -> (l <= k)%nat ->
     holds nmax k (column nmax (nodes trig k l)) (fun theta phi => let q := geo_to_base theta phi b false in schmidt k l (rad (fst q)) * trig (INR l * rad (snd q)))).
  { intros trig k l Htr Hk Hl. destruct (rotated_is_harmonic b k l Hb Hl trig Htr) as (g & h & E).
    exists g, h. split; [|exact E]. unfold nodes.
    apply (column_exact nt N k nmax x w Pnm (sh trig k l) g h G LP TP); [|lia|lia].
    intros i j Hi Hj. rewrite SH by lia. apply E. }
  intros k l Hk Hl. split; apply HH; auto.
Qed.

Lemma gauss_length n g h : List.length (gauss_list 1 n n g h) = (n * (n + 2))%nat.
Proof. rewrite gauss_lay. apply lay_length. Qed.

(** Times a vector: the same function of the direction, in the old axes,
    without the degrees above nmax. *)
Lemma times_expands nmax kmax C S b :
  (forall k l, (1 <= k <= kmax)%nat -> (l <= k)%nat ->
    holds nmax k (C k l) (fun theta phi => let q := geo_to_base theta phi b false in schmidt k l (rad (fst q)) * cos (INR l * rad (snd q))) /\
    holds nmax k (S k l) (fun theta phi => let q := geo_to_base theta phi b false in schmidt k l (rad (fst q)) * sin (INR l * rad (snd q)))) ->
  forall g h theta phi, let q := geo_to_base theta phi b false in
  expand nmax (times (entry (lay C S kmax)) (gauss_list 1 kmax kmax g h)) theta phi =
  surface 1 (Nat.min nmax kmax) g h (fst q) (snd q).
Proof.
  intros H g h theta phi q. rewrite gauss_lay. unfold times, entry. rewrite lay_length.
  set (M := lay C S kmax). set (v := lay g h kmax).
  transitivity (Rsum (map (fun col => nth col v 0 * expand nmax (fun i => nth i (nth col M []) 0) theta phi) (seq 0 (kmax * (kmax + 2))))).
  { rewrite <- expand_sum. unfold expand. apply surface_ext; intros; apply Rsum_map_ext; intros; ring. }
  rewrite <- lay_positions, lay_map.
  set (cut := fun n : nat => if (n <=? nmax)%nat then 1 else 0).
  transitivity (Rsum (lay (fun k l => cut k * (g k l * (schmidt k l (rad (fst q)) * cos (INR l * rad (snd q)))))
                          (fun k l => cut k * (h k l * (schmidt k l (rad (fst q)) * sin (INR l * rad (snd q))))) kmax)).
  { f_equal. unfold lay at 1 2, pairs. rewrite !flat_map_concat_map. f_equal. apply map_ext_in. intros k Hk. apply in_seq in Hk.
    unfold cut, M, v. f_equal.
    - rewrite !lay_nth_g by lia. destruct (H k 0%nat ltac:(lia) ltac:(lia)) as [H1 _].
      rewrite (expand_holds _ k _ _ _ _ (proj1 Hk) H1). cbv beta zeta. fold q. destruct (k <=? nmax)%nat; ring.
    - rewrite !flat_map_concat_map. f_equal. apply map_ext_in. intros l Hl. apply in_seq in Hl.
      destruct (H k l ltac:(lia) ltac:(lia)) as [H1 H2]. f_equal.
      + rewrite !lay_nth_g by lia. rewrite (expand_holds _ k _ _ _ _ (proj1 Hk) H1). cbv beta zeta. fold q. destruct (k <=? nmax)%nat; ring.
      + f_equal. rewrite !lay_nth_h by lia. rewrite (expand_holds _ k _ _ _ _ (proj1 Hk) H2). cbv beta zeta. fold q. destruct (k <=? nmax)%nat; ring. }
  rewrite sum_lay.
  2:{ intros n. cbn [INR]. rewrite Rmult_0_l, sin_0. ring. }
  unfold surface.
  transitivity (Rsum (map (fun n => cut n * Rsum (map (fun m => (g n m * cos (INR m * rad (snd q)) + h n m * sin (INR m * rad (snd q))) * schmidt n m (rad (fst q))) (range_incl 0 n))) (range_incl 1 kmax))).
  { apply Rsum_map_ext. intros n _. rewrite <- Rsum_map_scal. apply Rsum_map_ext. intros; ring. }
  unfold range_incl at 2 4. replace (kmax + 1 - 1)%nat with kmax by lia. replace (Nat.min nmax kmax + 1 - 1)%nat with (Nat.min nmax kmax) by lia.
  replace kmax with (Nat.min nmax kmax + (kmax - nmax))%nat at 1 by lia.
  rewrite seq_app, map_app, P_Synth.Rsum_app. rewrite <- Rplus_0_r. f_equal.
  - apply Rsum_map_ext. intros n Hn. apply in_seq in Hn. unfold cut. rewrite (proj2 (Nat.leb_le n nmax)) by lia. ring.
  - apply Rsum_map_0. intros n Hn. apply in_seq in Hn. unfold cut. destruct (Nat.leb_spec n nmax); [lia|ring].
Qed.
