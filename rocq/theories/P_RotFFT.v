(** rotate_gauss_fft for any number of samples. *)
From Coq Require Import Reals List Arith Lia Lra ZArith Bool String.
From Coquelicot Require Import Complex.
From Verif Require Import M_Prelude M_ND Spec_Legendre Spec_Field Spec_Analysis Spec_Coord M_Coord M_Legendre M_Rotate M_Analysis
  P_Legendre2 P_LegendreTab P_Synth P_Spline P_Quad P_Gauss P_SHC2 P_Analysis P_Coord3 P_Coord2 P_RotSH P_RotGauss P_Addition P_RotOrtho P_Analysis2
  Spec_Rotate P_Rotate P_Rotate2 P_Rotate3 P_Rotate4 W_Rotate P_Coord9 P_RotProps.
Import ListNotations.
Open Scope R_scope.

(** the value at a sample: a fixed combination of the samples *)
Definition weight (N j n : nat) : R :=
  (if (n =? j)%nat then 1 else 0) + (if Nat.even N then (-1) ^ j * ((-1) ^ n / INR N) else 0).
Lemma pick_sum (x : nat -> R) N j : (j < N)%nat -> Rsum (map (fun n => (if (n =? j)%nat then 1 else 0) * x n) (seq 0 N)) = x j.
Proof. exact (Rsum_single x N j). Qed.
Lemma weights N j (x : nat -> R) : (j < N)%nat ->
  Rsum (map (fun n => weight N j n * x n) (seq 0 N)) = x j + (if Nat.even N then (-1) ^ j * alternating_mean N x else 0).
Proof.
  intros Hj. unfold weight. rewrite <- (pick_sum x N j Hj).
  destruct (Nat.even N).
  - unfold alternating_mean. unfold Rdiv. rewrite (Rmult_comm _ (/ INR N)).
    rewrite <- (Rsum_map_scal (fun n => x n * (-1) ^ n) (/ INR N)), <- Rsum_map_scal, <- Rsum_map_plus.
    apply Rsum_map_ext. intros n _. ring.
  - rewrite Rplus_0_r. apply Rsum_map_ext. intros n _. ring.
Qed.

Lemma expand_combination nmax N (w : nat -> R) (x : nat -> nat -> nat -> R) (A : nat -> nat -> R) v theta phi :
  (forall r c, (r < nmax * (nmax + 2))%nat -> (c < List.length v)%nat -> A r c = Rsum (map (fun n => w n * x n r c) (seq 0 N))) ->
  expand nmax (times A v) theta phi = Rsum (map (fun n => w n * expand nmax (times (x n) v) theta phi) (seq 0 N)).
Proof.
  intros H. rewrite expand_Y.
  transitivity (Rsum (map (fun r => Rsum (map (fun n => w n * (times (x n) v r * Y r theta phi)) (seq 0 N))) (seq 0 (nmax * (nmax + 2))))).
  - apply Rsum_map_ext. intros r Hr. apply in_seq in Hr.
    transitivity (Rsum (map (fun n => w n * times (x n) v r) (seq 0 N)) * Y r theta phi).
    + f_equal. unfold times.
      transitivity (Rsum (map (fun c => Rsum (map (fun n => w n * (x n r c * nth c v 0)) (seq 0 N))) (seq 0 (List.length v)))).
      * apply Rsum_map_ext. intros c Hc. apply in_seq in Hc. rewrite H by lia.
        rewrite Rmult_comm, <- Rsum_map_scal. apply Rsum_map_ext. intros; ring.
      * rewrite Rsum_swap. apply Rsum_map_ext. intros n _. apply Rsum_map_scal.
    + rewrite Rmult_comm, <- Rsum_map_scal. apply Rsum_map_ext. intros; ring.
  - rewrite Rsum_swap. apply Rsum_map_ext. intros n _. rewrite expand_Y. apply Rsum_map_scal.
Qed.

Theorem fft_any_number oob leggauss argsort cfg file nmax kmax qfunc step N (sm : bool) reference sc start axis :
  gauss_legendre leggauss -> sorts_indices argsort -> (1 <= nmax)%nat -> (1 <= kmax)%nat -> (1 <= N)%nat -> 0 < step ->
  (sc = FlagBool true \/ sc = FlagBool false) -> lower reference = (if sm then "sm" else "gsm")%string ->
  -10 ^ 7 <= start -> start + INR N * step / 24 < 36159.75 -> dipole_to_vec cfg DNone = Ok axis -> unit_vec axis -> 1 / 4 <= vz axis ^ 2 ->
  exists F S FI SI frames,
    rotate_gauss_fft oob leggauss argsort cfg file nmax kmax qfunc (Some step) (Some N) None (Some reference) sc (Some start) = Ok (F, S, FI, SI) /\
    (forall n, (n < N)%nat -> let '(e1, e2, e3) := frames n in
       frame_of (if sm then SM else GSM) axis (sun_direction (sample_time step start n)) e1 e2 e3) /\
    forall time j, (forall i, valid (sh time) i -> (j i < N)%nat /\ at_ time i = sample_time step start (j i) - start) ->
    exists M, synth_rotate_gauss time F S sc = Ok M /\ sh M = (sh time ++ [nmax * (nmax + 2); kmax * (kmax + 2)])%nat%list /\
      forall i, valid (sh time) i -> forall v, List.length v = (kmax * (kmax + 2))%nat ->
      forall theta phi theta' phi', (forall n, (n < N)%nat -> same_direction (frames n) theta phi (theta' n) (phi' n)) ->
        let field n := expand (Nat.min nmax kmax) (fun k => nth k v 0) (theta' n) (phi' n) in
        expand nmax (times (fun r c => at_ M (i ++ [r; c])) v) theta phi =
        field (j i) + (if Nat.even N then (-1) ^ (j i) * alternating_mean N field else 0).
Proof.
  intros HG Hs Hn Hk HN Hst Hsc Hr Hbeg Hend Hax Hu Hz.
  set (times' := map (sample_time step start) (seq 0 N)).
  assert (RT : forall t, In t times' -> -10 ^ 7 <= t < 36159.75).
  { intros t H. apply in_map_iff in H. destruct H as (k & <- & Hk'). apply in_seq in Hk'. unfold sample_time.
    pose proof (pos_INR k) as P0. assert (P1 : INR k <= INR N) by (apply le_INR; lia). assert (INR k * step <= INR N * step) by (apply Rmult_le_compat_r; lra).
    assert (0 <= INR k * step) by (apply Rmult_le_pos; lra). lra. }
  destruct (gsm_sm_always cfg times' DNone axis RT Hax Hu Hz) as (bg & bs & Eg & Es & Fg & Fs).
  set (bases := if sm then bs else bg).
  assert (FB : Forall2 (fun t b => let '(e1, e2, e3) := b in frame_of (if sm then SM else GSM) axis (sun_direction t) e1 e2 e3) times' bases).
  { unfold bases. destruct sm; [exact Fs|exact Fg]. }
  assert (LB : List.length bases = N) by (pose proof (Forall2_length _ _ _ FB) as X; unfold times' in X; rewrite map_length, seq_length in X; exact (eq_sym X)).
  assert (RB : List.Forall is_rho bases).
  { clear - FB. induction FB as [|t b ts bb H _ IH]; constructor; [|exact IH]. destruct b as [[e1 e2] e3]. destruct sm; apply H. }
  destruct (rotate_gauss_rot oob leggauss nmax kmax bases HG Hn Hk RB) as (Ms & EM & FM).
  set (xx := fun n r c => entry (nth n Ms []) r c).
  assert (EBs : (if String.eqb (lower reference) "gsm" then basevectors_gsm cfg times' DNone
     else if String.eqb (lower reference) "sm" then basevectors_sm cfg times' DNone else Err ValueError) = Ok bases).
  { rewrite Hr. unfold bases. destruct sm; cbn; assumption. }
  unfold rotate_gauss_fft. unfold times' in EBs. rewrite EBs. cbn [bind]. rewrite EM. cbn [bind].
  match goal with |- context [spectra _ _ _ _ _ ?r ?c ?x ?q] => set (rows := r); set (cols := c); set (xx0 := x); set (qq := q) end.
  destruct (spectra_ok argsort N step sc rows cols xx0 qq) as (F & S & FI & SI & E).
  exists F, S, FI, SI, (fun n => nth n bases zero_base). split; [exact E|]. split.
  { intros n Hn'. pose proof (Forall2_nth_d _ _ _ 0 zero_base n FB ltac:(unfold times'; rewrite map_length, seq_length; lia)) as W.
    unfold times' in W. rewrite (nth_indep _ 0 (sample_time step start 0)) in W by (rewrite map_length, seq_length; exact Hn').
    rewrite map_nth, seq_nth in W by exact Hn'. exact W. }
  intros time j Ht.
  assert (P : proper sc) by (right; destruct Hsc as [-> | ->]; eauto).
  destruct (spectra_at_samples argsort N step sc rows cols xx0 qq F S FI SI time start j Hs) as (M & E1 & E2 & E3); try assumption.
  exists M. split; [exact E1|]. split; [exact E2|]. intros i Hi v Lv theta phi theta' phi' D.
  set (field := fun n => expand (Nat.min nmax kmax) (fun k => nth k v 0) (theta' n) (phi' n)).
  match goal with |- ?a = _ => change (a = field (j i) + (if Nat.even N then (-1) ^ (j i) * alternating_mean N field else 0)) end. destruct (Ht i Hi) as [Hj _].
  rewrite (expand_combination nmax N (weight N (j i)) xx0).
  - rewrite <- (weights N (j i) field Hj). apply Rsum_map_ext. intros n Hn'. apply in_seq in Hn'. f_equal. unfold field.
    pose proof (Forall2_nth_d _ _ _ zero_base [] n FM ltac:(lia)) as [_ HR].
    refine (rot_times nmax kmax (nth n bases zero_base) _ v HR Lv _ _ _ _ _ (D n ltac:(lia))).
    rewrite List.Forall_forall in RB. apply RB, nth_In. lia.
  - intros r c Hr' Hc'. rewrite (E3 i r c Hi) by (unfold rows, cols; lia). rewrite (weights N (j i) (fun n => xx0 n r c) Hj). reflexivity.
Qed.
