(** sh_analysis: any degree of the function; the example of the docstring. *)
From Coq Require Import Reals List Arith Lia Lra ZArith Bool.
From Coquelicot Require Import Coquelicot.
From Verif Require Import M_Prelude Spec_Legendre Spec_Field Spec_Analysis M_Coord M_Legendre M_Rotate M_Analysis
  P_Legendre2 P_LegendreTab P_Synth P_Spline P_Quad P_Ortho P_Gauss P_Analysis P_RotSH P_RotGauss P_Addition.
Import ListNotations.
Open Scope R_scope.

Lemma surface_up_to D D' g h theta phi : (D <= D')%nat -> surface 0 D g h theta phi = surface 0 D' (up_to D g) (up_to D h) theta phi.
Proof.
  intros H. unfold surface, range_incl at 2 4. replace (D' + 1 - 0)%nat with ((D + 1 - 0) + (D' - D))%nat by lia.
  rewrite seq_app, map_app, P_Synth.Rsum_app. rewrite <- Rplus_0_r at 1. f_equal.
  - apply Rsum_map_ext. intros n Hn. apply in_seq in Hn. unfold up_to. destruct (Nat.leb_spec n D); [reflexivity|lia].
  - symmetry. apply Rsum_map_0. intros n Hn. apply in_seq in Hn. unfold up_to. destruct (Nat.leb_spec n D); [lia|]. apply Rsum_map_0. intros; ring.
Qed.

Lemma sh_analysis_any oob leggauss func nmax kmax D g h :
  let K := match kmax with None => nmax | Some k => Nat.max nmax k end in
  (1 <= nmax)%nat -> (nmax + D <= 2 * K + 1)%nat ->
  gauss_rule (K + 1) (fst (leggauss (K + 1)%nat)) (snd (leggauss (K + 1)%nat)) ->
  (forall theta phi, 0 <= theta <= 180 -> func theta phi = surface 0 D g h theta phi) ->
  sh_analysis oob leggauss func nmax kmax = Ok (gauss_list 1 nmax nmax (up_to D g) (up_to D h)).
Proof.
  intros K H1 H2 G EF. apply (sh_analysis_exact oob leggauss func nmax kmax (Nat.max nmax D)).
  - lia.
  - fold K. assert (nmax <= K)%nat by (unfold K; destruct kmax; lia). lia.
  - exact G.
  - intros theta phi Ht. rewrite EF by exact Ht. apply surface_up_to. lia.
Qed.

Lemma sh_analysis_small_kmax oob leggauss func nmax k : (k <= nmax)%nat ->
  sh_analysis oob leggauss func nmax (Some k) = sh_analysis oob leggauss func nmax None.
Proof. intros H. unfold sh_analysis. rewrite Nat.max_l, Nat.max_id by exact H. reflexivity. Qed.

Lemma sh_analysis_zero oob leggauss func kmax :
  let K := match kmax with None => 0%nat | Some k => k end in
  gauss_rule (K + 1) (fst (leggauss (K + 1)%nat)) (snd (leggauss (K + 1)%nat)) ->
  sh_analysis oob leggauss func 0 kmax = Err IndexError.
Proof.
  intros K G. unfold sh_analysis. fold K. cbn [Nat.max]. destruct (leggauss (K + 1)%nat) as [x w]. cbn [fst snd] in G.
  rewrite grid_tables_0; [reflexivity|]. destruct G as (L & _). intros ->. cbn in L. lia.
Qed.

(** ** The rule with two nodes *)
Lemma Qf_1 x : Qf 1 0 x = x.
Proof. rewrite (Qf_sub 0), Qf_00. cbn [INR]. ring. Qed.
Lemma Qf_2 x : Qf 2 0 x = (3 * x ^ 2 - 1) / 2.
Proof. pose proof (Qf_rec 0 0 x) as E. rewrite Qf_1, Qf_00 in E. cbn [INR] in E. lra. Qed.
Lemma Qf_3 x : Qf 3 0 x = (5 * x ^ 3 - 3 * x) / 2.
Proof. pose proof (Qf_rec 1 0 x) as E. rewrite Qf_1, Qf_2 in E. cbn [INR] in E. lra. Qed.
Lemma Qf_4 x : Qf 4 0 x = (35 * x ^ 4 - 30 * x ^ 2 + 3) / 8.
Proof. pose proof (Qf_rec 2 0 x) as E. rewrite Qf_2, Qf_3 in E. cbn [INR] in E. lra. Qed.
Lemma Qf_5 x : Qf 5 0 x = (63 * x ^ 5 - 70 * x ^ 3 + 15 * x) / 8.
Proof. pose proof (Qf_rec 3 0 x) as E. rewrite Qf_3, Qf_4 in E. cbn [INR] in E. lra. Qed.
Lemma Qf_6 x : Qf 6 0 x = (231 * x ^ 6 - 315 * x ^ 4 + 105 * x ^ 2 - 5) / 16.
Proof. pose proof (Qf_rec 4 0 x) as E. rewrite Qf_4, Qf_5 in E. cbn [INR] in E. lra. Qed.
Lemma Qf_7 x : Qf 7 0 x = (429 * x ^ 7 - 693 * x ^ 5 + 315 * x ^ 3 - 35 * x) / 16.
Proof. pose proof (Qf_rec 5 0 x) as E. rewrite Qf_5, Qf_6 in E. cbn [INR] in E. lra. Qed.

Lemma two_nodes x w : gauss_rule 2 x w -> exists a, a ^ 2 = 1 / 3 /\ x = [a; - a] /\ w = [1; 1].
Proof.
  intros G. assert (Q : forall n k, (n + k <= 3)%nat -> Rsum (map (fun i => prod 0 n k (nth i x 0) * nth i w 0) (seq 0 2)) = J 0 n k).
  { intros n k H. apply (quadrature 2 x w (n + k)); [exact G|lia|]. apply is_poly_prod; lia. }
  pose proof (Q 0 0 ltac:(lia))%nat as M0. pose proof (Q 0 1 ltac:(lia))%nat as M1.
  pose proof (Q 1 1 ltac:(lia))%nat as M2. pose proof (Q 1 2 ltac:(lia))%nat as M3.
  rewrite J0 in M0, M2. rewrite J_ortho in M1, M3 by lia.
  destruct G as (Lx & Lw & _). destruct x as [|x1 [|x2 [|]]]; cbn in Lx; try lia. destruct w as [|w1 [|w2 [|]]]; cbn in Lw; try lia.
  cbn [seq map nth INR] in *. rewrite !Rsum_cons in *. change (Rsum []) with 0 in *. unfold prod in *.
  rewrite !Qf_00, !Qf_1, ?Qf_2 in *. cbn [pow] in *.
  assert (A0 : w1 + w2 = 2) by lra. assert (A1 : w1 * x1 + w2 * x2 = 0) by lra.
  assert (A2 : w1 * x1 * x1 + w2 * x2 * x2 = 2 / 3) by lra.
  assert (A3 : w1 * x1 * x1 * x1 + w2 * x2 * x2 * x2 = 0) by lra.
  clear M0 M1 M2 M3.
  assert (N1 : w1 * x1 <> 0).
  { intros Z. assert (w2 * x2 = 0) by lra. assert (w1 * x1 * x1 + w2 * x2 * x2 = 0) by (rewrite Z, H; ring). lra. }
  assert (S : (w1 * x1) * ((x1 - x2) * (x1 + x2)) = 0).
  { transitivity (w1 * x1 * x1 * x1 + w2 * x2 * x2 * x2 - (w1 * x1 + w2 * x2) * (x2 * x2)); [ring|]. rewrite A3, A1. ring. }
  apply Rmult_integral in S. destruct S as [S|S]; [contradiction|]. apply Rmult_integral in S.
  assert (X : x2 = - x1).
  { destruct S as [S|S]; [|lra]. exfalso. assert (x2 = x1) by lra. subst x2.
    assert (x1 = 0). { assert (2 * x1 = 0) by (rewrite <- A0; lra). lra. } apply N1. rewrite H. ring. }
  subst x2. assert (x1 <> 0) by (intros Z; apply N1; rewrite Z; ring).
  assert (W : (w1 - w2) * x1 = 0) by lra. apply Rmult_integral in W. destruct W as [W|W]; [|contradiction].
  assert (w1 = 1) by lra. assert (w2 = 1) by lra. subst w1 w2. exists x1. split; [cbn; lra|]. split; reflexivity.
Qed.

Lemma docstring_example oob leggauss func : gauss_rule 2 (fst (leggauss 2%nat)) (snd (leggauss 2%nat)) ->
  (forall theta phi, 0 <= theta <= 180 -> func theta phi = schmidt 7 0 (rad theta)) ->
  sh_analysis oob leggauss func 1 None = Ok [5 / 9; 0; 0].
Proof.
  intros G EF. unfold sh_analysis. cbn [Nat.max Nat.add Nat.mul]. destruct (leggauss 2%nat) as [x w]. cbn [fst snd] in G.
  destruct (grid_tables oob 1 2 x w ltac:(lia) G) as (Pnm & -> & LP & TP). cbn [bind].
  destruct (two_nodes x w G) as (a & Ha & Ex & Ew). pose proof (nodes_range _ _ _ 0%nat G ltac:(lia)) as R0. pose proof (nodes_range _ _ _ 1%nat G ltac:(lia)) as R1.
  pose proof G as (Lx & Lw & _).
  assert (EN : map (fun t => fft_over_N 4 (fun j => func t (grid_phi 4 j))) (grid_theta x)
             = map (fun i => fft_over_N 4 (fun j => func (nth i (grid_theta x) 0) (grid_phi 4 j))) (seq 0 2)).
  { rewrite (map_by_index _ (grid_theta x) 0). unfold grid_theta at 2. rewrite map_length, Lx. reflexivity. }
  rewrite EN.
  assert (FT : forall i m, (i < 2)%nat -> (m < 2)%nat -> fft_over_N 4 (fun j => func (nth i (grid_theta x) 0) (grid_phi 4 j)) m =
     (if Nat.eqb m 0 then Qf 7 0 (nth i x 0) else 0, 0)).
  { intros i m Hi Hm. rewrite (fft_trig 4 0 (fun _ => Qf 7 0 (nth i x 0)) (fun _ => 0) _ m ltac:(lia)).
    - destruct m as [|[|m]]; cbn; [f_equal; ring| |lia]. f_equal; ring.
    - intros j _. rewrite EF.
      + rewrite grid_theta_nth, rad_degrees, schmidt_n0, cos_acos by (try lia; pose proof (nodes_range _ _ _ i G Hi); lra).
        unfold trig. cbn. rewrite Rmult_0_l, cos_0, sin_0. ring.
      + rewrite grid_theta_nth by lia. apply degrees_range. pose proof (nodes_range _ _ _ i G Hi); lra. }
  match goal with |- context [combine (combine Pnm w) ?l] => set (nodes := combine (combine Pnm w) l) end.
  cbn [flat_map app seq]. unfold nodes.
  rewrite !(project_seq Pnm w _ 2 (fun _ _ => 0) _ _ LP Lw). change (seq 0 2) with [0; 1]%nat. cbn [map].
  rewrite !FT by lia. cbn [Nat.eqb fst snd]. rewrite !Rsum_cons. change (Rsum []) with 0.
  rewrite !Cdiv_real by (cbn; lra). cbn [fst snd].
  assert (N1 : 2 / (2 * INR 1 + 1) = 2 / 3) by (cbn; lra). rewrite N1.
  rewrite !TP by lia. rewrite !schmidt_n0, Ex, Ew. rewrite Ex in R0, R1. cbn [nth] in *.
  rewrite !cos_acos by lra. rewrite !Qf_1, !Qf_7.
  f_equal. f_equal; [|f_equal; [|f_equal]].
  - set (b := a ^ 2) in *.
    transitivity (((429 * (b * b * b * b) - 693 * (b * b * b) + 315 * (b * b) - 35 * b) / 8) / (2 / 3)); [unfold b; field|].
    rewrite Ha. field.
  - field.
  - field.
Qed.
