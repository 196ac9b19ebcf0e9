(** sh_analysis recovers the coefficients of every expansion that its grid
    can resolve. *)
From Coq Require Import Reals List Arith Lia Lra ZArith.
From Coquelicot Require Import Complex.
From Verif Require Import M_Prelude Spec_Legendre Spec_Field Spec_Analysis Spec_Coord M_Coord M_Legendre M_Rotate M_Analysis
  P_Legendre2 P_LegendreTab P_Synth P_Spline P_Quad P_SHC2.
Import ListNotations.
Open Scope R_scope.

Lemma Csum_pair (l : list C) : Csum l = (Rsum (map fst l), Rsum (map snd l)).
Proof.
  induction l as [|[a b] l IH]; [reflexivity|]. cbn [Csum fold_right]. fold (Csum l). rewrite IH.
  cbn [map fst snd]. rewrite !Rsum_cons. reflexivity.
Qed.

Lemma map_by_index {A B} (f : A -> B) (l : list A) d : map f l = map (fun i => f (nth i l d)) (seq 0 (List.length l)).
Proof.
  induction l as [|x l IH]; [reflexivity|]. cbn [map List.length seq nth]. f_equal.
  rewrite IH, <- seq_shift, map_map. reflexivity.
Qed.

Lemma project_seq (Pnm : list tab) (w : list R) (f : nat -> nat -> C) nt d n m :
  List.length Pnm = nt -> List.length w = nt ->
  project (combine (combine Pnm w) (map f (seq 0 nt))) n m =
  (Rsum (map (fun i => fst (f i m) * (nth i Pnm d n m * nth i w 0)) (seq 0 nt)),
   Rsum (map (fun i => snd (f i m) * (nth i Pnm d n m * nth i w 0)) (seq 0 nt))).
Proof.
  intros L1 L2. unfold project. rewrite Csum_pair, !map_map.
  set (l := combine (combine Pnm w) (map f (seq 0 nt))).
  assert (L : List.length l = nt) by (unfold l; rewrite !combine_length, map_length, seq_length; lia).
  rewrite !(map_by_index _ l (d, 0, f 0%nat)), L.
  f_equal; apply Rsum_map_ext; intros i Hi; apply in_seq in Hi; unfold l;
    rewrite combine_nth by (rewrite combine_length, map_length, seq_length; lia);
    rewrite combine_nth by lia; rewrite (map_nth f), seq_nth by lia; cbn; ring.
Qed.

(** ** The grid *)
Lemma rad_degrees t : rad (np_degrees t) = t.
Proof. unfold rad, np_degrees. field. apply PI_neq0. Qed.

Lemma grid_angle N j : (0 < N)%nat -> rad (grid_phi N j) = angle N j.
Proof.
  intros H. unfold grid_phi, rad, np_degrees, angle. pose proof (lt_0_INR N H). field. split; [lra|apply PI_neq0].
Qed.

Lemma degrees_range t : -1 <= t <= 1 -> 0 <= np_degrees (acos t) <= 180.
Proof.
  intros H. pose proof (acos_bound t). pose proof PI_RGT_0. unfold np_degrees.
  assert (0 < 180 / PI) by (apply Rdiv_lt_0_compat; lra). split.
  - apply Rmult_le_pos; lra.
  - apply (Rle_trans _ (PI * (180 / PI))); [apply Rmult_le_compat_r; lra|]. right. field. lra.
Qed.

Lemma grid_theta_nth x i : (i < List.length x)%nat -> nth i (grid_theta x) 0 = np_degrees (acos (nth i x 0)).
Proof.
  intros H. unfold grid_theta. rewrite (nth_indep _ 0 (np_degrees (acos 0))) by (rewrite map_length; exact H).
  apply (map_nth (fun t => np_degrees (acos t))).
Qed.

(** Legendre functions on the grid *)
Lemma grid_tables oob nmax nt x w : (1 <= nmax)%nat -> gauss_rule nt x w ->
  exists Pnm, mapM (legendre_poly oob nmax) (grid_theta x) = Ok Pnm /\ List.length Pnm = nt /\
  forall d i n m, (i < nt)%nat -> (m <= n <= nmax)%nat -> nth i Pnm d n m = schmidt n m (acos (nth i x 0)).
Proof.
  intros H G. pose proof G as (Lx & _ & F & _).
  assert (T : forall t, In t (grid_theta x) -> exists P, legendre_poly oob nmax t = Ok P /\
     forall n m, (m <= n <= nmax)%nat -> P n m = schmidt n m (rad t)).
  { intros t Ht. unfold grid_theta in Ht. apply in_map_iff in Ht. destruct Ht as (y & <- & Hy).
    rewrite Forall_forall in F. specialize (F y Hy).
    destruct (legendre_poly_ok oob nmax (np_degrees (acos y)) H) as (P & E & A & _).
    - apply degrees_range. lra.
    - exists P. split; [exact E|exact A]. }
  destruct (mapM_total (legendre_poly oob nmax) (grid_theta x)) as [Pnm E].
  { intros t Ht. destruct (T t Ht) as (P & E & _). exists P. exact E. }
  exists Pnm. split; [exact E|]. apply mapM_Forall2 in E.
  assert (L : List.length Pnm = nt).
  { rewrite <- (Forall2_length _ _ _ E). unfold grid_theta. rewrite map_length. exact Lx. }
  split; [exact L|]. intros d i n m Hi Hm.
  assert (Q : forall l l', List.Forall2 (fun t y => legendre_poly oob nmax t = Ok y) l l' -> forall i, (i < List.length l)%nat ->
     legendre_poly oob nmax (nth i l 0) = Ok (nth i l' d)).
  { intros l l' X. induction X; intros [|j] Hj; cbn in *; try lia; [assumption|]. apply IHX. lia. }
  specialize (Q _ _ E i). unfold grid_theta in Q at 1. rewrite map_length, Lx in Q. specialize (Q Hi).
  rewrite grid_theta_nth in Q by lia.
  destruct (T (np_degrees (acos (nth i x 0)))) as (P & E' & A).
  { unfold grid_theta. apply (in_map (fun t => np_degrees (acos t))), nth_In. lia. }
  rewrite E' in Q. injection Q as <-. rewrite A, rad_degrees by exact Hm. reflexivity.
Qed.

Lemma grid_tables_0 oob x : x <> [] -> mapM (legendre_poly oob 0) (grid_theta x) = Err IndexError.
Proof. destruct x; [congruence|]. reflexivity. Qed.

(** ** An expansion along a parallel is a trigonometric polynomial *)
Lemma range_incl_0 n : range_incl 0 n = seq 0 (S n).
Proof. unfold range_incl. f_equal. lia. Qed.

Lemma surface_trig lo K g h theta phi :
  surface lo K g h theta phi =
  trig K (fun l => Rsum (map (fun k => g k l * schmidt k l (rad theta)) (range_incl lo K)))
         (fun l => Rsum (map (fun k => h k l * schmidt k l (rad theta)) (range_incl lo K))) (rad phi).
Proof.
  unfold surface, trig.
  transitivity (Rsum (map (fun k => Rsum (map (fun l =>
     (g k l * cos (INR l * rad phi) + h k l * sin (INR l * rad phi)) * schmidt k l (rad theta)) (seq 0 (S K)))) (range_incl lo K))).
  - apply Rsum_map_ext. intros k Hk. apply in_seq in Hk. rewrite range_incl_0.
    replace (S K) with (S k + (K - k))%nat by lia. rewrite seq_app, map_app, P_Synth.Rsum_app.
    symmetry. rewrite <- Rplus_0_r. f_equal. apply Rsum_map_0. intros l Hl. apply in_seq in Hl.
    rewrite cn_gt by lia. ring.
  - rewrite Rsum_swap. apply Rsum_map_ext. intros l _.
    rewrite (Rmult_comm (Rsum _) (cos _)), (Rmult_comm (Rsum _) (sin _)), <- !Rsum_map_scal, <- Rsum_map_plus.
    apply Rsum_map_ext. intros; ring.
Qed.

Lemma sum_pick (f : nat -> R) n a len :
  Rsum (map (fun k => (if Nat.eqb k n then 1 else 0) * f k) (seq a len)) =
  if ((a <=? n) && (n <? a + len))%nat%bool then f n else 0.
Proof.
  revert a. induction len as [|len IH]; intros a; cbn [seq map]; rewrite ?Rsum_cons, ?IH.
  - destruct (Nat.leb_spec a n), (Nat.ltb_spec n (a + 0)); cbn [andb]; try reflexivity; lia.
  - destruct (Nat.eqb_spec a n) as [->|E].
    + destruct (Nat.leb_spec (S n) n), (Nat.leb_spec n n), (Nat.ltb_spec n (n + S len)); cbn [andb]; try lia; ring.
    + destruct (Nat.leb_spec (S a) n), (Nat.leb_spec a n), (Nat.ltb_spec n (S a + len)), (Nat.ltb_spec n (a + S len)); cbn [andb]; try lia; ring.
Qed.

(** ** The projection of an expansion on a Schmidt function *)
Section Exact.
Variables (nt N lo K nmax : nat) (x w : list R) (Pnm : list tab) (F : nat -> nat -> R) (g h : nat -> nat -> R).
Hypothesis G : gauss_rule nt x w.
Hypothesis LP : List.length Pnm = nt.
Hypothesis TP : forall d i n m, (i < nt)%nat -> (m <= n <= nmax)%nat -> nth i Pnm d n m = schmidt n m (acos (nth i x 0)).
Hypothesis EF : forall i j, (i < nt)%nat -> (j < N)%nat -> F i j = surface lo K g h (np_degrees (acos (nth i x 0))) (grid_phi N j).

Let nodes := combine (combine Pnm w) (map (fun i => fft_over_N N (F i)) (seq 0 nt)).
Let inside n : bool := ((lo <=? n) && (n <=? K))%nat%bool.

Lemma project_exact n m : (m <= n <= nmax)%nat -> (n + K <= 2 * nt - 1)%nat -> (n + K < N)%nat ->
  project nodes n m =
  ((if inside n then g n m else 0) * (2 / (2 * INR n + 1)),
   if Nat.eqb m 0 then 0 else - (if inside n then h n m else 0) * (2 / (2 * INR n + 1))).
Proof.
  intros Hm Hd HN. unfold nodes. pose proof G as (_ & Lw & _ & _).
  assert (FF : forall i, (i < nt)%nat -> fft_over_N N (F i) m =
    ((if Nat.eqb m 0 then 1 else 1 / 2) * (if (m <=? K)%nat then Rsum (map (fun k => g k m * schmidt k m (acos (nth i x 0))) (range_incl lo K)) else 0),
     - ((if Nat.eqb m 0 then 0 else 1 / 2) * (if (m <=? K)%nat then Rsum (map (fun k => h k m * schmidt k m (acos (nth i x 0))) (range_incl lo K)) else 0)))).
  { intros i Hi. rewrite (fft_trig N K (fun l => Rsum (map (fun k => g k l * schmidt k l (acos (nth i x 0))) (range_incl lo K)))
       (fun l => Rsum (map (fun k => h k l * schmidt k l (acos (nth i x 0))) (range_incl lo K)))); [reflexivity|lia|].
    intros j Hj. rewrite EF by assumption. rewrite surface_trig, rad_degrees, grid_angle by lia. reflexivity. }
  (* the sum over the nodes picks degree n *)
  assert (SS : forall (u : nat -> nat -> R), Rsum (map (fun i => Rsum (map (fun k => u k m * schmidt k m (acos (nth i x 0))) (range_incl lo K)) *
       (schmidt n m (acos (nth i x 0)) * nth i w 0)) (seq 0 nt)) =
     (if inside n then u n m else 0) * ((if Nat.eqb m 0 then 2 else 4) / (2 * INR n + 1))).
  { intros u.
    transitivity (Rsum (map (fun k => u k m * Rsum (map (fun i => schmidt n m (acos (nth i x 0)) * schmidt k m (acos (nth i x 0)) * nth i w 0) (seq 0 nt))) (range_incl lo K))).
    - transitivity (Rsum (map (fun i => Rsum (map (fun k => u k m * (schmidt n m (acos (nth i x 0)) * schmidt k m (acos (nth i x 0)) * nth i w 0)) (range_incl lo K))) (seq 0 nt))).
      + apply Rsum_map_ext. intros i _. rewrite Rmult_comm, <- Rsum_map_scal. apply Rsum_map_ext. intros; ring.
      + rewrite Rsum_swap. apply Rsum_map_ext. intros k _. apply Rsum_map_scal.
    - transitivity (Rsum (map (fun k => (if Nat.eqb k n then 1 else 0) * (u k m * ((if Nat.eqb m 0 then 2 else 4) / (2 * INR n + 1)))) (range_incl lo K))).
      + apply Rsum_map_ext. intros k Hk. apply in_seq in Hk.
        destruct (le_lt_dec m k) as [Hmk|Hmk].
        * rewrite (gauss_schmidt nt x w n k m G) by lia. rewrite Nat.eqb_sym. destruct (Nat.eqb k n); ring.
        * rewrite (Rsum_map_0 _ (seq 0 nt)).
          2:{ intros i _. rewrite (cn_gt k m Hmk). ring. }
          destruct (Nat.eqb_spec k n); [lia|ring].
      + unfold range_incl. rewrite (sum_pick (fun k => u k m * ((if Nat.eqb m 0 then 2 else 4) / (2 * INR n + 1)))).
        unfold inside. destruct (Nat.leb_spec lo n), (Nat.leb_spec n K), (Nat.ltb_spec n (lo + (K + 1 - lo))); cbn [andb]; try lia; ring. }
  assert (MK : (m <=? K)%nat = false -> inside n = false).
  { intros E. apply Nat.leb_gt in E. unfold inside. rewrite (proj2 (Nat.leb_gt n K)) by lia. apply Bool.andb_false_r. }
  rewrite (project_seq Pnm w (fun i => fft_over_N N (F i)) nt (fun _ _ => 0) n m LP Lw). pose proof (pos_INR n).
  f_equal.
  - transitivity ((if Nat.eqb m 0 then 1 else 1 / 2) * (if (m <=? K)%nat then
       Rsum (map (fun i => Rsum (map (fun k => g k m * schmidt k m (acos (nth i x 0))) (range_incl lo K)) * (schmidt n m (acos (nth i x 0)) * nth i w 0)) (seq 0 nt)) else 0)).
    + destruct (m <=? K)%nat eqn:EK.
      * rewrite <- Rsum_map_scal. apply Rsum_map_ext. intros i Hi. apply in_seq in Hi. rewrite FF, TP by lia. cbn [fst]. ring.
      * rewrite Rmult_0_r. apply Rsum_map_0. intros i Hi. apply in_seq in Hi. rewrite FF by lia. cbn [fst]. ring.
    + rewrite SS. destruct (m <=? K)%nat eqn:EK; [|rewrite (MK eq_refl); ring].
      destruct (Nat.eqb m 0); field; lra.
  - transitivity (- ((if Nat.eqb m 0 then 0 else 1 / 2) * (if (m <=? K)%nat then
       Rsum (map (fun i => Rsum (map (fun k => h k m * schmidt k m (acos (nth i x 0))) (range_incl lo K)) * (schmidt n m (acos (nth i x 0)) * nth i w 0)) (seq 0 nt)) else 0))).
    + destruct (m <=? K)%nat eqn:EK.
      * rewrite Ropp_mult_distr_l, <- Rsum_map_scal. apply Rsum_map_ext. intros i Hi. apply in_seq in Hi. rewrite FF, TP by lia. cbn [snd]. ring.
      * rewrite Rmult_0_r, Ropp_0. apply Rsum_map_0. intros i Hi. apply in_seq in Hi. rewrite FF by lia. cbn [snd]. ring.
    + rewrite SS. destruct (m <=? K)%nat eqn:EK; [|rewrite (MK eq_refl); destruct (Nat.eqb m 0); ring].
      destruct (Nat.eqb m 0); field; lra.
Qed.

End Exact.

(** ** sh_analysis *)
Lemma Cdiv_real (a b r : R) : r <> 0 -> Cdiv (a, b) (RtoC r) = (a / r, b / r).
Proof.
  intros H. unfold Cdiv, Cinv, Cmult, RtoC. cbn [fst snd]. f_equal; field; repeat split; try assumption; nra.
Qed.

Lemma gauss_flat nmax (g h g' h' : nat -> nat -> R) :
  (forall n m, (1 <= n <= nmax)%nat -> (m <= n)%nat -> g n m = g' n m) ->
  (forall n m, (1 <= n <= nmax)%nat -> (1 <= m <= n)%nat -> h n m = h' n m) ->
  flat_map (fun n => g n 0%nat :: flat_map (fun m => [g n m; h n m]) (seq 1 n)) (seq 1 nmax) = gauss_list 1 nmax nmax g' h'.
Proof.
  intros Hg Hh. unfold gauss_list, range_incl. replace (nmax + 1 - 1)%nat with nmax by lia.
  rewrite !flat_map_concat_map. f_equal. apply map_ext_in. intros n Hn. apply in_seq in Hn.
  rewrite Nat.min_l by lia. replace (n + 1 - 1)%nat with n by lia. rewrite Hg by lia. f_equal.
  rewrite !flat_map_concat_map. f_equal. apply map_ext_in. intros m Hm. apply in_seq in Hm.
  rewrite Hg, Hh by lia. reflexivity.
Qed.

Lemma sh_analysis_exact oob leggauss func nmax kmax D g h :
  let K := match kmax with None => nmax | Some k => Nat.max nmax k end in
  (1 <= nmax <= D)%nat -> (nmax + D <= 2 * K + 1)%nat ->
  gauss_rule (K + 1) (fst (leggauss (K + 1)%nat)) (snd (leggauss (K + 1)%nat)) ->
  (forall theta phi, 0 <= theta <= 180 -> func theta phi = surface 0 D g h theta phi) ->
  sh_analysis oob leggauss func nmax kmax = Ok (gauss_list 1 nmax nmax g h).
Proof.
  intros K [H1 HD1] HD2 G EF. unfold sh_analysis.
  replace (Nat.max nmax (match kmax with None => nmax | Some k => k end)) with K by (unfold K; destruct kmax; lia).
  assert (HK : (nmax <= K)%nat) by (unfold K; destruct kmax; lia). clearbody K.
  cbv zeta. destruct (leggauss (K + 1)%nat) as [x w]. cbn [fst snd] in G.
  destruct (grid_tables oob nmax _ x w H1 G) as (Pnm & -> & LP & TP). cbn [bind].
  pose proof G as (Lx & Lw & _ & _).
  set (N := (2 * (K + 1))%nat).
  assert (EN : map (fun t => fft_over_N N (fun j => func t (grid_phi N j))) (grid_theta x)
             = map (fun i => fft_over_N N (fun j => func (nth i (grid_theta x) 0) (grid_phi N j))) (seq 0 (K + 1))).
  { rewrite (map_by_index _ (grid_theta x) 0). unfold grid_theta at 2. rewrite map_length, Lx. reflexivity. }
  rewrite EN. f_equal.
  set (F := fun i j => func (nth i (grid_theta x) 0) (grid_phi N j)).
  assert (PE : forall n m, (m <= n <= nmax)%nat -> project (combine (combine Pnm w) (map (fun i => fft_over_N N (F i)) (seq 0 (K + 1)))) n m =
     (g n m * (2 / (2 * INR n + 1)), if Nat.eqb m 0 then 0 else - h n m * (2 / (2 * INR n + 1)))).
  { intros n m Hm. rewrite (project_exact (K + 1) N 0 D nmax x w Pnm F g h G LP TP) by (try lia;
      intros i j Hi Hj; unfold F; rewrite grid_theta_nth by lia; apply EF, degrees_range;
      pose proof (nodes_range _ _ _ i G Hi); lra).
    rewrite (proj2 (Nat.leb_le n D)) by lia. reflexivity. }
  rewrite <- (gauss_flat nmax g h g h) by reflexivity.
  rewrite !flat_map_concat_map. f_equal. apply map_ext_in. intros n Hn. apply in_seq in Hn.
  assert (P : 2 / (2 * INR n + 1) <> 0).
  { pose proof (pos_INR n). apply Rmult_integral_contrapositive_currified; [lra|]. apply Rinv_neq_0_compat. lra. }
  fold F. f_equal.
  - rewrite PE, Cdiv_real by (lia || exact P). cbn [fst]. field. pose proof (pos_INR n). lra.
  - rewrite !flat_map_concat_map. f_equal. apply map_ext_in. intros m Hm. apply in_seq in Hm.
    rewrite PE, Cdiv_real by (lia || exact P). cbn [fst snd]. destruct (Nat.eqb_spec m 0); [lia|].
    pose proof (pos_INR n). f_equal; [field; lra|]. f_equal. field; lra.
Qed.
