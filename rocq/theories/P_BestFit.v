(** sh_analysis gives the best fit on its grid. *)
From Coq Require Import Reals List Arith Lia Lra ZArith Bool String.
From Coquelicot Require Import Coquelicot.
From Verif Require P_Spectrum.
From Verif Require Import M_Prelude M_ND Spec_Legendre Spec_Field Spec_Analysis Spec_Grid Spec_Coord M_Coord M_Legendre M_Rotate M_Analysis
  P_Legendre2 P_LegendreTab P_Synth P_Spline P_Quad P_Ortho P_Gauss P_SHC2 P_Analysis P_RotSH P_RotGauss P_Addition P_RotOrtho P_Unique.
Import ListNotations.
Open Scope R_scope.

Definition Yc n m t p : R := cos (INR m * rad p) * schmidt n m (rad t).
Definition Ys n m t p : R := sin (INR m * rad p) * schmidt n m (rad t).

Lemma surface_Y lo N g h t p : surface lo N g h t p =
  Rsum (map (fun n => Rsum (map (fun m => g n m * Yc n m t p + h n m * Ys n m t p) (range_incl 0 n))) (range_incl lo N)).
Proof. apply Rsum_map_ext. intros n _. apply Rsum_map_ext. intros m _. unfold Yc, Ys. ring. Qed.

Section Grid.
Variables (k : nat) (x w : list R).
Local Notation gm := (grid_mean k x w).

Lemma gm_ext f g : (forall t p, f t p = g t p) -> gm f = gm g.
Proof. intros H. apply Rsum_map_ext. intros i _. f_equal. f_equal. apply Rsum_map_ext. intros j _. apply H. Qed.
Lemma gm_plus f g : gm (fun t p => f t p + g t p) = gm f + gm g.
Proof.
  unfold grid_mean. rewrite <- Rsum_map_plus. apply Rsum_map_ext. intros i _. rewrite Rsum_map_plus. unfold Rdiv. ring.
Qed.
Lemma gm_scal a f : gm (fun t p => a * f t p) = a * gm f.
Proof.
  unfold grid_mean. rewrite <- Rsum_map_scal. apply Rsum_map_ext. intros i _. rewrite Rsum_map_scal. unfold Rdiv. ring.
Qed.
Lemma gm_0 : gm (fun _ _ => 0) = 0.
Proof. rewrite (gm_ext _ (fun t p => 0 * 0)) by (intros; ring). rewrite (gm_scal 0 (fun _ _ => 0)). ring. Qed.
Lemma gm_sum {A} (l : list A) (f : A -> R -> R -> R) : gm (fun t p => Rsum (map (fun a => f a t p) l)) = Rsum (map (fun a => gm (f a)) l).
Proof.
  induction l as [|a l IH]; cbn [map]; [apply gm_0|]. rewrite Rsum_cons, <- IH. rewrite <- gm_plus. apply gm_ext. intros. apply Rsum_cons.
Qed.
Lemma gm_surface f N g h : gm (fun t p => f t p * surface 1 N g h t p) =
  Rsum (map (fun n => Rsum (map (fun m => g n m * gm (fun t p => f t p * Yc n m t p) + h n m * gm (fun t p => f t p * Ys n m t p)) (range_incl 0 n))) (range_incl 1 N)).
Proof.
  rewrite (gm_ext _ (fun t p => Rsum (map (fun n => Rsum (map (fun m => g n m * (f t p * Yc n m t p) + h n m * (f t p * Ys n m t p)) (range_incl 0 n))) (range_incl 1 N)))).
  2:{ intros. rewrite surface_Y. rewrite <- Rsum_map_scal. apply Rsum_map_ext. intros n _. rewrite <- Rsum_map_scal. apply Rsum_map_ext. intros m _. ring. }
  rewrite gm_sum. apply Rsum_map_ext. intros n _. rewrite gm_sum. apply Rsum_map_ext. intros m _.
  rewrite gm_plus, !gm_scal. reflexivity.
Qed.
End Grid.

(** ** The coefficients are weighted means *)
Section Formula.
Variables (oob : R) (leggauss : nat -> list R * list R) (func : R -> R -> R) (nmax : nat) (kmax : option nat).
Let K := match kmax with None => nmax | Some k => Nat.max nmax k end.
Let x := fst (leggauss (K + 1)%nat).
Let w := snd (leggauss (K + 1)%nat).
Local Notation gm := (grid_mean (K + 1) x w).
Hypothesis H1 : (1 <= nmax)%nat.
Hypothesis G : gauss_rule (K + 1) x w.

Lemma analysis_formula : sh_analysis oob leggauss func nmax kmax =
  Ok (gauss_list 1 nmax nmax (fun n m => (2 * INR n + 1) * gm (fun t p => func t p * Yc n m t p)) (fun n m => (2 * INR n + 1) * gm (fun t p => func t p * Ys n m t p))).
Proof.
  unfold sh_analysis. replace (Nat.max nmax (match kmax with None => nmax | Some k => k end)) with K by (unfold K; destruct kmax; lia).
  assert (HK : (nmax <= K)%nat) by (unfold K; destruct kmax; lia). subst x w. clearbody K.
  cbv zeta. destruct (leggauss (K + 1)%nat) as [x w]. cbn [fst snd] in *.
  destruct (grid_tables oob nmax _ x w H1 G) as (Pnm & -> & LP & TP). cbn [bind].
  pose proof G as (Lx & Lw & _ & _). set (N := (2 * (K + 1))%nat).
  assert (EN : map (fun t => fft_over_N N (fun j => func t (grid_phi N j))) (grid_theta x)
             = map (fun i => fft_over_N N (fun j => func (nth i (grid_theta x) 0) (grid_phi N j))) (seq 0 (K + 1))).
  { rewrite (map_by_index _ (grid_theta x) 0). unfold grid_theta at 2. rewrite map_length, Lx. reflexivity. }
  rewrite EN. f_equal. set (F := fun i j => func (nth i (grid_theta x) 0) (grid_phi N j)).
  assert (N0 : 0 < INR N) by (apply lt_0_INR; lia).
  assert (PH : forall j, grid_phi N j = INR j * (180 / INR (K + 1))).
  { intros j. unfold grid_phi, np_degrees. unfold N in *. rewrite mult_INR in *. change (INR 2) with 2 in *. field. split; [lra|]. apply PI_neq0. }
  assert (AN : forall m j, 2 * PI * INR m * INR j / INR N = INR m * rad (grid_phi N j)).
  { intros m j. rewrite grid_angle by lia. unfold angle. field. lra. }
  assert (TH : forall i, (i < K + 1)%nat -> nth i (grid_theta x) 0 = acos (nth i x 0) * (180 / PI)).
  { intros i Hi. rewrite grid_theta_nth by lia. reflexivity. }
  assert (PE : forall n m, (m <= n <= nmax)%nat -> project (combine (combine Pnm w) (map (fun i => fft_over_N N (F i)) (seq 0 (K + 1)))) n m =
     (2 * grid_mean (K + 1) x w (fun t p => func t p * Yc n m t p), - (2 * grid_mean (K + 1) x w (fun t p => func t p * Ys n m t p)))).
  { intros n m Hm. rewrite (project_seq Pnm w (fun i => fft_over_N N (F i)) (K + 1) (fun _ _ => 0) n m LP Lw).
    assert (Q : forall (tr : R -> R), Rsum (map (fun i => Rsum (map (fun j => F i j * tr (2 * PI * INR m * INR j / INR N)) (seq 0 N)) / INR N * (nth i Pnm (fun _ _ => 0) n m * nth i w 0)) (seq 0 (K + 1))) =
       2 * grid_mean (K + 1) x w (fun t p => func t p * (tr (INR m * rad p) * schmidt n m (rad t)))).
    { intros tr. unfold grid_mean. rewrite <- Rsum_map_scal. apply Rsum_map_ext. intros i Hi. apply in_seq in Hi.
      rewrite TP by lia.
      transitivity (nth i w 0 * ((schmidt n m (acos (nth i x 0)) * Rsum (map (fun j => F i j * tr (2 * PI * INR m * INR j / INR N)) (seq 0 N))) / INR N)); [field; lra|].
      rewrite <- Rsum_map_scal. unfold N at 2 3. fold N.
      transitivity (nth i w 0 * (Rsum (map (fun j => func (acos (nth i x 0) * (180 / PI)) (INR j * (180 / INR (K + 1))) *
         (tr (INR m * rad (INR j * (180 / INR (K + 1)))) * schmidt n m (rad (acos (nth i x 0) * (180 / PI))))) (seq 0 N)) / INR N)); [|unfold N; field; unfold N in N0; lra].
      f_equal. f_equal. apply Rsum_map_ext. intros j _. unfold F. rewrite AN, TH, PH by lia.
      change (acos (nth i x 0) * (180 / PI)) with (np_degrees (acos (nth i x 0))). rewrite rad_degrees. ring. }
    f_equal.
    - exact (Q cos).
    - unfold fft_over_N. cbn [snd]. transitivity (- Rsum (map (fun i => Rsum (map (fun j => F i j * sin (2 * PI * INR m * INR j / INR N)) (seq 0 N)) / INR N * (nth i Pnm (fun _ _ => 0) n m * nth i w 0)) (seq 0 (K + 1)))).
      + match goal with |- _ = - ?s => replace (- s) with (-1 * s) by ring end. rewrite <- Rsum_map_scal. apply Rsum_map_ext. intros i _. unfold Rdiv. ring.
      + f_equal. apply (Q sin). }
  rewrite <- (gauss_flat nmax _ _ _ _ (fun _ _ _ _ => eq_refl) (fun _ _ _ _ => eq_refl)).
  rewrite !flat_map_concat_map. f_equal. apply map_ext_in. intros n Hn. apply in_seq in Hn.
  pose proof (pos_INR n).
  assert (P : 2 / (2 * INR n + 1) <> 0).
  { apply Rmult_integral_contrapositive_currified; [lra|]. apply Rinv_neq_0_compat. lra. }
  fold F. f_equal.
  - rewrite PE, Cdiv_real by (lia || exact P). cbn [fst]. field. lra.
  - rewrite !flat_map_concat_map. f_equal. apply map_ext_in. intros m Hm. apply in_seq in Hm.
    rewrite PE, Cdiv_real by (lia || exact P). cbn [fst snd]. f_equal; [field; lra|]. f_equal. field; lra.
Qed.
End Formula.

(** ** Orthogonality on the grid *)
Section Ortho.
Variables (k : nat) (x w : list R) (N : nat).
Hypothesis H1 : (1 <= N)%nat.
Hypothesis HN : (N + 1 <= k)%nat.
Hypothesis G : gauss_rule k x w.
Local Notation gm := (grid_mean k x w).

Lemma surface_project g h : 
  (forall n m, (1 <= n <= N)%nat -> (m <= n)%nat -> (2 * INR n + 1) * gm (fun t p => surface 1 N g h t p * Yc n m t p) = g n m) /\
  (forall n m, (1 <= n <= N)%nat -> (1 <= m <= n)%nat -> (2 * INR n + 1) * gm (fun t p => surface 1 N g h t p * Ys n m t p) = h n m).
Proof.
  set (z := fun (a : nat -> nat -> R) n m => if Nat.eqb n 0 then 0 else a n m).
  assert (Z : forall theta phi, surface 1 N g h theta phi = surface 0 N (z g) (z h) theta phi).
  { intros. rewrite surface_degree0. unfold z at 1. cbn [Nat.eqb]. rewrite Rplus_0_l.
    apply Rsum_map_ext. intros n Hn. apply range_incl_spec in Hn. apply Rsum_map_ext. intros m _. unfold z. destruct (Nat.eqb_spec n 0); [lia|reflexivity]. }
  pose proof (sh_analysis_exact 0 (fun _ => (x, w)) (surface 1 N g h) N (Some (k - 1)%nat) N (z g) (z h)) as A.
  pose proof (analysis_formula 0 (fun _ => (x, w)) (surface 1 N g h) N (Some (k - 1)%nat)) as B.
  cbv beta iota zeta in A, B. cbn [fst snd] in A, B. replace (Nat.max N (k - 1) + 1)%nat with k in A, B by lia.
  specialize (A ltac:(lia) ltac:(lia) G (fun t p _ => Z t p)). specialize (B H1 G). rewrite A in B.
  apply (f_equal (fun r => match r with Ok l => l | Err _ => [] end)) in B. rewrite !gauss_lay in B.
  split; intros n m Hn Hm.
  - pose proof (f_equal (fun l => nth (g_position n m) l 0) B) as F. cbv beta in F. rewrite !lay_nth_g in F by lia.
    unfold z in F. destruct (Nat.eqb_spec n 0); [lia|]. symmetry. exact F.
  - pose proof (f_equal (fun l => nth (h_position n m) l 0) B) as F. cbv beta in F. rewrite !lay_nth_h in F by lia.
    unfold z in F. destruct (Nat.eqb_spec n 0); [lia|]. symmetry. exact F.
Qed.

Definition power g h : R := Rsum (map (fun n => / (2 * INR n + 1) * Rsum (map (fun m => (g n m)^2 + if Nat.eqb m 0 then 0 else (h n m)^2) (range_incl 0 n))) (range_incl 1 N)).

Lemma Ys0 n t p : Ys n 0 t p = 0.
Proof. unfold Ys. change (INR 0) with 0. rewrite Rmult_0_l, sin_0. ring. Qed.

(** mean of f times an expansion, when f has coefficients a, b *)
Lemma gm_product f a b g h :
  (forall n m, (1 <= n <= N)%nat -> (m <= n)%nat -> (2 * INR n + 1) * gm (fun t p => f t p * Yc n m t p) = a n m) ->
  (forall n m, (1 <= n <= N)%nat -> (1 <= m <= n)%nat -> (2 * INR n + 1) * gm (fun t p => f t p * Ys n m t p) = b n m) ->
  gm (fun t p => f t p * surface 1 N g h t p) =
  Rsum (map (fun n => / (2 * INR n + 1) * Rsum (map (fun m => a n m * g n m + if Nat.eqb m 0 then 0 else b n m * h n m) (range_incl 0 n))) (range_incl 1 N)).
Proof.
  intros A B. rewrite gm_surface. apply Rsum_map_ext. intros n Hn. apply range_incl_spec in Hn. rewrite <- Rsum_map_scal. apply Rsum_map_ext. intros m Hm. apply range_incl_spec in Hm.
  pose proof (pos_INR n). rewrite <- (A n m) by lia. destruct (Nat.eqb_spec m 0) as [->|E].
  - rewrite (gm_ext k x w (fun t p => f t p * Ys n 0 t p) (fun _ _ => 0)) by (intros; rewrite Ys0; ring). rewrite gm_0. field. lra.
  - rewrite <- (B n m) by lia. field. lra.
Qed.

Lemma gm_square g h : gm (fun t p => (surface 1 N g h t p)^2) = power g h.
Proof.
  rewrite (gm_ext k x w _ (fun t p => surface 1 N g h t p * surface 1 N g h t p)) by (intros; ring).
  destruct (surface_project g h) as [A B]. rewrite (gm_product _ g h g h A B). apply Rsum_map_ext. intros n _. f_equal. apply Rsum_map_ext. intros m _.
  destruct (Nat.eqb m 0); ring.
Qed.

Lemma best_fit f a b g h :
  (forall n m, (1 <= n <= N)%nat -> (m <= n)%nat -> (2 * INR n + 1) * gm (fun t p => f t p * Yc n m t p) = a n m) ->
  (forall n m, (1 <= n <= N)%nat -> (1 <= m <= n)%nat -> (2 * INR n + 1) * gm (fun t p => f t p * Ys n m t p) = b n m) ->
  gm (fun t p => (f t p - surface 1 N g h t p)^2) =
  gm (fun t p => (f t p - surface 1 N a b t p)^2) + power (fun n m => a n m - g n m) (fun n m => b n m - h n m).
Proof.
  intros A B. rewrite <- gm_square.
  set (d := surface 1 N (fun n m => a n m - g n m) (fun n m => b n m - h n m)).
  assert (D : forall t p, surface 1 N a b t p - surface 1 N g h t p = d t p) by (intros; apply surface_sub).
  assert (X : gm (fun t p => f t p * d t p) = gm (fun t p => surface 1 N a b t p * d t p)).
  { destruct (surface_project a b) as [A' B']. unfold d. rewrite (gm_product f a b _ _ A B), (gm_product _ a b _ _ A' B'). reflexivity. }
  rewrite (gm_ext k x w _ (fun t p => ((f t p - surface 1 N a b t p)^2 + (d t p)^2) + (2 * (f t p * d t p) + (-2) * (surface 1 N a b t p * d t p)))).
  2:{ intros t p. replace (f t p - surface 1 N g h t p) with ((f t p - surface 1 N a b t p) + d t p) by (rewrite <- D; ring). ring. }
  rewrite !gm_plus, !gm_scal, X. ring.
Qed.
End Ortho.

(** ** Lists *)
Lemma nth_add_scaled a l l' i : List.length l = List.length l' -> nth i (add_scaled a l l') 0 = nth i l 0 + a * nth i l' 0.
Proof.
  intros L. unfold add_scaled. destruct (Nat.lt_ge_cases i (List.length l)) as [H|H].
  - rewrite (nth_indep _ 0 ((fun i => nth i l 0 + a * nth i l' 0) 0%nat)) by (rewrite map_length, seq_length; exact H).
    rewrite (map_nth (fun i => nth i l 0 + a * nth i l' 0)), seq_nth by exact H. reflexivity.
  - rewrite !nth_overflow by (rewrite ?map_length, ?seq_length; lia). ring.
Qed.
Lemma list_positions N l : (1 <= N)%nat -> List.length l = (N * (N + 2))%nat -> lay (fun n m => nth (g_position n m) l 0) (fun n m => nth (h_position n m) l 0) N = l.
Proof.
  intros HN L. apply nth_ext with (d := 0) (d' := 0); [rewrite lay_length; symmetry; exact L|]. rewrite lay_length. intros i Hi.
  destruct (degree_exists N i Hi) as (n & Hn & Hr). destruct (range_position n i ltac:(lia) Hr) as (m & [[Hm ->]|[Hm ->]]).
  - rewrite lay_nth_g by lia. reflexivity.
  - rewrite lay_nth_h by lia. reflexivity.
Qed.
Lemma lay_ext N (g h g' h' : nat -> nat -> R) : (forall n m, (1 <= n <= N)%nat -> (m <= n)%nat -> g n m = g' n m) -> (forall n m, (1 <= n <= N)%nat -> (1 <= m <= n)%nat -> h n m = h' n m) -> lay g h N = lay g' h' N.
Proof. intros A B. rewrite <- (gauss_lay N g' h'). unfold lay. apply gauss_flat; assumption. Qed.

Section Best.
Variables (oob : R) (leggauss : nat -> list R * list R) (nmax : nat) (kmax : option nat).
Let K := match kmax with None => nmax | Some k => Nat.max nmax k end.
Let x := fst (leggauss (K + 1)%nat).
Let w := snd (leggauss (K + 1)%nat).
Local Notation gm := (grid_mean (K + 1) x w).
Hypothesis H1 : (1 <= nmax)%nat.
Hypothesis G : gauss_rule (K + 1) x w.
Local Notation ex l := (expand nmax (fun i => nth i l 0)).
Let HK : (nmax + 1 <= K + 1)%nat.
Proof. unfold K. destruct kmax; lia. Qed.

Lemma analysis_coeffs func : exists l, sh_analysis oob leggauss func nmax kmax = Ok l /\ List.length l = (nmax * (nmax + 2))%nat /\
  (forall n m, (1 <= n <= nmax)%nat -> (m <= n)%nat -> (2 * INR n + 1) * gm (fun t p => func t p * Yc n m t p) = nth (g_position n m) l 0) /\
  (forall n m, (1 <= n <= nmax)%nat -> (1 <= m <= n)%nat -> (2 * INR n + 1) * gm (fun t p => func t p * Ys n m t p) = nth (h_position n m) l 0).
Proof.
  eexists. split; [exact (analysis_formula oob leggauss func nmax kmax H1 G)|]. rewrite gauss_lay. split; [apply lay_length|].
  split; intros n m Hn Hm; [rewrite lay_nth_g by lia|rewrite lay_nth_h by lia]; reflexivity.
Qed.

Lemma analysis_only func l : 
  List.length l = (nmax * (nmax + 2))%nat ->
  (forall n m, (1 <= n <= nmax)%nat -> (m <= n)%nat -> (2 * INR n + 1) * gm (fun t p => func t p * Yc n m t p) = nth (g_position n m) l 0) ->
  (forall n m, (1 <= n <= nmax)%nat -> (1 <= m <= n)%nat -> (2 * INR n + 1) * gm (fun t p => func t p * Ys n m t p) = nth (h_position n m) l 0) ->
  sh_analysis oob leggauss func nmax kmax = Ok l.
Proof.
  intros L A B. rewrite (analysis_formula oob leggauss func nmax kmax H1 G), gauss_lay. f_equal. rewrite <- (list_positions nmax l H1 L). apply lay_ext; assumption.
Qed.

Lemma power_list l l' : List.length l = List.length l' ->
  power nmax (fun n m => nth (g_position n m) l 0 - nth (g_position n m) l' 0) (fun n m => nth (h_position n m) l 0 - nth (h_position n m) l' 0) =
  mean_square nmax (add_scaled (-1) l l').
Proof.
  intros L. unfold power, mean_square. apply Rsum_map_ext. intros n _. unfold Rdiv. rewrite Rmult_comm. f_equal. unfold degree_power.
  apply Rsum_map_ext. intros m _. rewrite !nth_add_scaled by exact L. destruct (Nat.eqb m 0); ring.
Qed.
Lemma degree_power_nonneg l n : 0 <= degree_power l n.
Proof. apply P_Spectrum.Rsum_nonneg. intros v Hv. apply in_map_iff in Hv. destruct Hv as (m & <- & _). destruct (Nat.eqb m 0); nra. Qed.
Lemma mean_square_nonneg N l : 0 <= mean_square N l.
Proof.
  apply P_Spectrum.Rsum_nonneg. intros v Hv. apply in_map_iff in Hv. destruct Hv as (n & <- & _). pose proof (pos_INR n).
  apply Rmult_le_pos; [apply degree_power_nonneg|]. apply Rlt_le, Rinv_0_lt_compat. lra.
Qed.
Lemma Rsum_zero_terms {A} (f : A -> R) l : (forall a, In a l -> 0 <= f a) -> Rsum (map f l) = 0 -> forall a, In a l -> f a = 0.
Proof.
  induction l as [|b l IH]; intros P Z a Ha; [destruct Ha|]. cbn [map] in Z. rewrite Rsum_cons in Z.
  assert (0 <= Rsum (map f l)). { apply P_Spectrum.Rsum_nonneg. intros v Hv. apply in_map_iff in Hv. destruct Hv as (c & <- & Hc). apply P. right. exact Hc. }
  pose proof (P b (or_introl eq_refl)). destruct Ha as [<-|Ha]; [lra|]. apply IH; [intros c Hc; apply P; right; exact Hc|lra|exact Ha].
Qed.
Lemma square_zero u v : u ^ 2 + v = 0 -> 0 <= v -> u = 0.
Proof. intros A B. destruct (Req_dec u 0) as [|N]; [assumption|]. pose proof (Rsqr_pos_lt u N) as P. unfold Rsqr in P. exfalso. cbn in A. rewrite Rmult_1_r in A. lra. Qed.
Lemma mean_square_zero l l' : List.length l = (nmax * (nmax + 2))%nat -> List.length l' = (nmax * (nmax + 2))%nat -> mean_square nmax (add_scaled (-1) l l') = 0 -> l = l'.
Proof.
  intros L L' Z. assert (LL : List.length l = List.length l') by congruence.
  assert (D : forall n m, (1 <= n <= nmax)%nat -> (m <= n)%nat -> (nth (g_position n m) (add_scaled (-1) l l') 0) ^ 2 + (if Nat.eqb m 0 then 0 else (nth (h_position n m) (add_scaled (-1) l l') 0) ^ 2) = 0).
  { intros n m Hn Hm. pose proof (pos_INR n).
    assert (P : degree_power (add_scaled (-1) l l') n / (2 * INR n + 1) = 0).
    { apply (Rsum_zero_terms (fun n => degree_power (add_scaled (-1) l l') n / (2 * INR n + 1)) (range_incl 1 nmax)); [|exact Z|apply range_incl_spec; lia].
      intros a _. pose proof (pos_INR a). apply Rmult_le_pos; [apply degree_power_nonneg|]. apply Rlt_le, Rinv_0_lt_compat. lra. }
    assert (P' : degree_power (add_scaled (-1) l l') n = 0). { apply (Rmult_eq_reg_r (/ (2 * INR n + 1))); [unfold Rdiv in P; lra|]. apply Rinv_neq_0_compat. lra. }
    unfold degree_power in P'. refine (Rsum_zero_terms _ _ _ P' m _). { intros q _. destruct (Nat.eqb q 0); nra. } apply range_incl_spec. lia. }
  rewrite <- (list_positions nmax l H1 L), <- (list_positions nmax l' H1 L'). apply lay_ext; intros n m Hn Hm.
  - specialize (D n m Hn Hm). rewrite !nth_add_scaled in D by exact LL. apply square_zero in D; [lra|]. destruct (Nat.eqb m 0); [lra|apply pow2_ge_0].
  - specialize (D n m Hn ltac:(lia)). rewrite !nth_add_scaled in D by exact LL. destruct (Nat.eqb_spec m 0); [lia|]. rewrite Rplus_comm in D. apply square_zero in D; [lra|apply pow2_ge_0].
Qed.

Lemma best_fit_list func : exists l, sh_analysis oob leggauss func nmax kmax = Ok l /\ List.length l = (nmax * (nmax + 2))%nat /\
  forall c, List.length c = (nmax * (nmax + 2))%nat ->
    let err c := gm (fun t p => (func t p - ex c t p)^2) in
    err c = err l + mean_square nmax (add_scaled (-1) l c) /\ err l <= err c /\ (err c = err l -> c = l).
Proof.
  destruct (analysis_coeffs func) as (l & E & L & A & B). exists l. split; [exact E|]. split; [exact L|]. intros c Lc err.
  assert (X : err c = err l + mean_square nmax (add_scaled (-1) l c)).
  { unfold err. rewrite <- power_list by congruence. unfold expand.
    exact (best_fit (K + 1) x w nmax H1 HK G func _ _ (fun n m => nth (g_position n m) c 0) (fun n m => nth (h_position n m) c 0) A B). }
  split; [exact X|]. pose proof (mean_square_nonneg nmax (add_scaled (-1) l c)). split; [lra|]. intros Y. symmetry. apply mean_square_zero; [exact L|exact Lc|lra].
Qed.

Lemma analysis_linear f1 f2 a l1 l2 : sh_analysis oob leggauss f1 nmax kmax = Ok l1 -> sh_analysis oob leggauss f2 nmax kmax = Ok l2 ->
  sh_analysis oob leggauss (fun t p => f1 t p + a * f2 t p) nmax kmax = Ok (add_scaled a l1 l2).
Proof.
  intros E1 E2. destruct (analysis_coeffs f1) as (l & E & L1 & A1 & B1). assert (l = l1) by congruence. subst l. clear E.
  destruct (analysis_coeffs f2) as (l & E & L2 & A2 & B2). assert (l = l2) by congruence. subst l. clear E.
  apply analysis_only.
  - unfold add_scaled. rewrite map_length, seq_length. exact L1.
  - intros n m Hn Hm. rewrite nth_add_scaled by congruence. rewrite <- A1, <- A2 by assumption.
    rewrite (gm_ext _ _ _ _ (fun t p => f1 t p * Yc n m t p + a * (f2 t p * Yc n m t p))) by (intros; ring). rewrite gm_plus, gm_scal. ring.
  - intros n m Hn Hm. rewrite nth_add_scaled by congruence. rewrite <- B1, <- B2 by assumption.
    rewrite (gm_ext _ _ _ _ (fun t p => f1 t p * Ys n m t p + a * (f2 t p * Ys n m t p))) by (intros; ring). rewrite gm_plus, gm_scal. ring.
Qed.

(** only the values on the grid count *)
Lemma gm_grid f g : (forall i j, (i < K + 1)%nat -> (j < 2 * (K + 1))%nat ->
    f (acos (nth i x 0) * (180 / PI)) (INR j * (180 / INR (K + 1))) = g (acos (nth i x 0) * (180 / PI)) (INR j * (180 / INR (K + 1)))) -> gm f = gm g.
Proof.
  intros H. apply Rsum_map_ext. intros i Hi. apply in_seq in Hi. f_equal. f_equal. apply Rsum_map_ext. intros j Hj. apply in_seq in Hj. apply H; lia.
Qed.
Lemma analysis_grid f1 f2 : (forall i j, (i < K + 1)%nat -> (j < 2 * (K + 1))%nat ->
    f1 (acos (nth i x 0) * (180 / PI)) (INR j * (180 / INR (K + 1))) = f2 (acos (nth i x 0) * (180 / PI)) (INR j * (180 / INR (K + 1)))) ->
  sh_analysis oob leggauss f1 nmax kmax = sh_analysis oob leggauss f2 nmax kmax.
Proof.
  intros H. destruct (analysis_coeffs f2) as (l & E & L & A & B). rewrite E. apply analysis_only; [exact L| |].
  - intros n m Hn Hm. rewrite <- A by assumption. f_equal. apply gm_grid. intros i j Hi Hj. rewrite H by assumption. reflexivity.
  - intros n m Hn Hm. rewrite <- B by assumption. f_equal. apply gm_grid. intros i j Hi Hj. rewrite H by assumption. reflexivity.
Qed.

Lemma analysis_constant func c : sh_analysis oob leggauss (fun t p => func t p + c) nmax kmax = sh_analysis oob leggauss func nmax kmax.
Proof.
  destruct (analysis_coeffs func) as (l & E & L & A & B). rewrite E.
  assert (Z : sh_analysis oob leggauss (fun _ _ => 1) nmax kmax = Ok (gauss_list 1 nmax nmax (fun n _ => if Nat.eqb n 0 then 1 else 0) (fun _ _ => 0))).
  { apply (sh_analysis_exact oob leggauss _ nmax kmax nmax).
    - lia.
    - fold K. lia.
    - exact G.
    - intros theta phi _. rewrite surface_degree0. cbn [Nat.eqb]. unfold surface. rewrite (Rsum_map_0 _ (range_incl 1 nmax)); [ring|].
      intros n Hn. apply range_incl_spec in Hn. apply Rsum_map_0. intros m _. destruct (Nat.eqb_spec n 0); [lia|ring]. }
  rewrite gauss_lay in Z. pose proof (analysis_linear func (fun _ _ => 1) c _ _ E Z) as X.
  rewrite (analysis_grid _ (fun t p => func t p + c * 1)) by (intros; ring). rewrite X. f_equal.
  apply nth_ext with (d := 0) (d' := 0); [unfold add_scaled; rewrite map_length, seq_length; reflexivity|]. intros i Hi. unfold add_scaled in Hi. rewrite map_length, seq_length in Hi.
  rewrite nth_add_scaled by (rewrite lay_length; exact L). rewrite L in Hi. destruct (degree_exists nmax i Hi) as (n & Hn & Hr).
  destruct (range_position n i ltac:(lia) Hr) as (m & [[Hm ->]|[Hm ->]]); [rewrite lay_nth_g by lia|rewrite lay_nth_h by lia]; [destruct (Nat.eqb_spec n 0); [lia|]|]; ring.
Qed.
End Best.
