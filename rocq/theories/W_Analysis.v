(** Witnesses and final forms for Props_Analysis. *)
From Coq Require Import Reals List Bool String Arith Lia Lra.
From Coquelicot Require Import Complex.
From Verif Require W_Coord.
From Verif Require Import M_Prelude M_ND Spec_Legendre Spec_Field Spec_Analysis Spec_Coord Spec_Rotate M_Coord M_Legendre M_Rotate M_Analysis
  P_Synth P_Spline P_SHC2 P_Coord3 P_RotSH P_RotGauss P_Gauss P_Gauss2 P_Analysis P_RotOrtho P_Analysis2 P_RotProps P_Legendre2.
Import ListNotations.
Open Scope R_scope.

Lemma docstring_example_fine oob leggauss func k : gauss_legendre leggauss -> (4 <= k)%nat ->
  (forall theta phi, 0 <= theta <= 180 -> func theta phi = schmidt 7 0 (rad theta)) ->
  sh_analysis oob leggauss func 1 (Some k) = Ok [0; 0; 0].
Proof.
  intros HG Hk EF.
  set (g := fun n m => if (Nat.eqb n 7 && Nat.eqb m 0)%bool then 1 else 0).
  rewrite (sh_analysis_any oob leggauss func 1 (Some k) 7 g (fun _ _ => 0)).
  - cbn. reflexivity.
  - lia.
  - lia.
  - apply HG. lia.
  - intros theta phi Ht. rewrite EF by exact Ht. unfold surface, range_incl. cbn -[schmidt Rsum].
    rewrite !Rsum_cons. change (Rsum []) with 0. unfold g. cbn [Nat.eqb andb INR]. rewrite !Rmult_0_l, cos_0. ring.
Qed.

Lemma same_function oob leggauss nmax kmax bases :
  gauss_legendre leggauss -> (1 <= nmax)%nat -> (1 <= kmax)%nat -> List.Forall right_handed_axes bases ->
  exists Ms, rotate_gauss oob leggauss nmax kmax bases = Ok Ms /\
    Forall2 (fun b M => is_matrix (nmax * (nmax + 2)) (kmax * (kmax + 2)) M /\
      forall v, List.length v = (kmax * (kmax + 2))%nat ->
      forall theta phi theta' phi', same_direction b theta phi theta' phi' ->
        expand nmax (times (entry M) v) theta phi = expand (Nat.min nmax kmax) (fun i => nth i v 0) theta' phi') bases Ms.
Proof.
  intros HG Hn Hk HB. destruct (rotate_gauss_rot oob leggauss nmax kmax bases HG Hn Hk HB) as (Ms & E & F).
  exists Ms. split; [exact E|]. clear E. induction F as [|b M bs Ms [H1 H2] F IH]; constructor.
  - inversion HB; subst. split; [exact H1|]. intros v Lv theta phi theta' phi' D. exact (rot_times _ _ b _ v H2 Lv H3 _ _ _ _ D).
  - apply IH. inversion HB; assumption.
Qed.

Lemma axes_case : right_handed_axes (V3 (3 / 5) (4 / 5) 0, V3 (- (4 / 5)) (3 / 5) 0, V3 0 0 1) /\
  right_handed_axes (V3 0 0 1, V3 1 0 0, V3 0 1 0).
Proof.
  unfold right_handed_axes, right_handed_orthonormal, unit_vec, vdot, vprod. cbn [vx vy vz].
  split; (repeat split; try lra; f_equal; lra).
Qed.

Lemma directions_exist b theta phi : right_handed_axes b ->
  exists theta' phi', same_direction b theta phi theta' phi' /\ 0 <= theta' <= 180 /\ -180 < phi' <= 180.
Proof.
  destruct b as [[e1 e2] e3]. intros H. pose proof (geo_to_base_fwd theta phi e1 e2 e3 H) as W.
  destruct (geo_to_base _ _ _ _) as [t' p']. exists t', p'. exact W.
Qed.

Lemma rot_of oob leggauss nmax kmax bases Ms : gauss_legendre leggauss -> (1 <= nmax)%nat -> (1 <= kmax)%nat -> List.Forall right_handed_axes bases ->
  rotate_gauss oob leggauss nmax kmax bases = Ok Ms -> Forall2 (fun b M => is_rho b /\ rot nmax kmax b (entry M)) bases Ms.
Proof.
  intros HG Hn Hk HB E. destruct (rotate_gauss_rot oob leggauss nmax kmax bases HG Hn Hk HB) as (Ms' & E' & F).
  rewrite E in E'. assert (Ms' = Ms) as -> by congruence. clear E E'. induction F as [|b M bs Ms0 [_ H] F IH]; constructor.
  - inversion HB; subst. split; assumption.
  - apply IH. inversion HB; assumption.
Qed.

Lemma right_Forall {A B} (P : A -> B -> Prop) (Q : B -> Prop) l l' : Forall2 P l l' -> (forall a b, P a b -> Q b) -> List.Forall Q l'.
Proof. intros F H. induction F; constructor; eauto. Qed.

Lemma no_mixing oob leggauss nmax kmax bases Ms :
  gauss_legendre leggauss -> (1 <= nmax)%nat -> (1 <= kmax)%nat -> List.Forall right_handed_axes bases ->
  rotate_gauss oob leggauss nmax kmax bases = Ok Ms ->
  List.Forall (fun M => forall n k row col, n <> k -> (1 <= n <= nmax)%nat -> (1 <= k <= kmax)%nat ->
     of_degree n row -> of_degree k col -> entry M row col = 0) Ms.
Proof.
  intros HG Hn Hk HB E. refine (right_Forall _ _ _ _ (rot_of _ _ _ _ _ _ HG Hn Hk HB E) _).
  intros b M (_ & _ & H) n k row col D H1 H2 H3 H4. exact (H n k col row D H1 H2 H3 H4).
Qed.

Lemma truncation oob leggauss nmax kmax nmax' kmax' bases Ms Ms' :
  gauss_legendre leggauss -> (1 <= nmax)%nat -> (1 <= kmax)%nat -> (1 <= nmax')%nat -> (1 <= kmax')%nat ->
  List.Forall right_handed_axes bases ->
  rotate_gauss oob leggauss nmax kmax bases = Ok Ms -> rotate_gauss oob leggauss nmax' kmax' bases = Ok Ms' ->
  Forall2 (fun M M' => forall row col,
     (row < nmax * (nmax + 2))%nat -> (row < nmax' * (nmax' + 2))%nat ->
     (col < kmax * (kmax + 2))%nat -> (col < kmax' * (kmax' + 2))%nat -> entry M row col = entry M' row col) Ms Ms'.
Proof.
  intros HG Hn Hk Hn' Hk' HB E E'. pose proof (rot_of _ _ _ _ _ _ HG Hn Hk HB E) as F. pose proof (rot_of _ _ _ _ _ _ HG Hn' Hk' HB E') as F'.
  clear E E' HB. revert Ms' F'. induction F as [|b M bs Ms [_ H] F IH]; intros Ms' F'; inversion F' as [|b' M' bs' Ms0 [_ H'] F0]; subst; constructor.
  - intros row col. apply (rot_consistent nmax kmax nmax' kmax' b); assumption.
  - apply IH, F0.
Qed.

Lemma of_degree_case : of_degree 1 2 /\ of_degree 2 3 /\ of_degree 3 14 /\ forall n m, (1 <= m <= n)%nat ->
  of_degree n (g_position n 0) /\ of_degree n (g_position n m) /\ of_degree n (h_position n m).
Proof.
  split; [unfold of_degree; lia|]. split; [unfold of_degree; lia|]. split; [unfold of_degree; lia|].
  intros n m H. split; [apply g_range; lia|]. split; [apply g_range; lia|apply h_range; lia].
Qed.

Lemma power_preserved oob leggauss nmax kmax bases Ms v :
  gauss_legendre leggauss -> (1 <= nmax)%nat -> (1 <= kmax)%nat -> List.Forall right_handed_axes bases ->
  rotate_gauss oob leggauss nmax kmax bases = Ok Ms -> List.length v = (kmax * (kmax + 2))%nat ->
  List.Forall (fun M => let rotated := map (times (entry M) v) (seq 0 (nmax * (nmax + 2))) in
    (forall n, (1 <= n <= Nat.min nmax kmax)%nat -> degree_power rotated n = degree_power v n) /\
    (forall i, (kmax * (kmax + 2) <= i < nmax * (nmax + 2))%nat -> nth i rotated 0 = 0)) Ms.
Proof.
  intros HG Hn Hk HB E Lv. refine (right_Forall _ _ _ _ (rot_of _ _ _ _ _ _ HG Hn Hk HB E) _).
  intros b M (Hb & H). split.
  - intros n. apply (rot_power nmax kmax b); assumption.
  - intros i Hi. rewrite (nth_map_in _ _ _ _ 0%nat) by (rewrite seq_length; lia). rewrite seq_nth by lia.
    apply (rot_above nmax kmax b); assumption.
Qed.

Lemma orthogonal oob leggauss nmax bases Ms :
  gauss_legendre leggauss -> (1 <= nmax)%nat -> List.Forall right_handed_axes bases ->
  rotate_gauss oob leggauss nmax nmax bases = Ok Ms ->
  List.Forall (fun M => forall i j, (i < nmax * (nmax + 2))%nat -> (j < nmax * (nmax + 2))%nat ->
    Rsum (map (fun l => entry M i l * entry M j l) (seq 0 (nmax * (nmax + 2)))) = delta i j /\
    Rsum (map (fun l => entry M l i * entry M l j) (seq 0 (nmax * (nmax + 2)))) = delta i j) Ms.
Proof.
  intros HG Hn HB E. refine (right_Forall _ _ _ _ (rot_of _ _ _ _ _ _ HG Hn Hn HB E) _).
  intros b M (Hb & H) i j Hi Hj. split; [apply (rot_rows nmax b); assumption|apply (rot_cols nmax b); assumption].
Qed.

Lemma single oob leggauss nmax kmax b M : gauss_legendre leggauss -> (1 <= nmax)%nat -> (1 <= kmax)%nat -> right_handed_axes b ->
  rotate_gauss oob leggauss nmax kmax [b] = Ok [M] -> rot nmax kmax b (entry M).
Proof.
  intros HG Hn Hk Hb E. pose proof (rot_of oob leggauss nmax kmax [b] [M] HG Hn Hk ltac:(constructor; [exact Hb|constructor]) E) as F.
  inversion F as [|? ? ? ? H]; subst. apply H.
Qed.

Lemma single_exists oob leggauss nmax kmax b : gauss_legendre leggauss -> (1 <= nmax)%nat -> (1 <= kmax)%nat -> right_handed_axes b ->
  exists M, rotate_gauss oob leggauss nmax kmax [b] = Ok [M].
Proof.
  intros HG Hn Hk Hb. destruct (rotate_gauss_rot oob leggauss nmax kmax [b] HG Hn Hk ltac:(constructor; [exact Hb|constructor])) as (Ms & E & F).
  inversion F as [|? M ? ? _ F']; subst. inversion F'; subst. exists M. exact E.
Qed.

Lemma inverse_transpose oob leggauss nmax b M M' :
  gauss_legendre leggauss -> (1 <= nmax)%nat -> right_handed_axes b ->
  rotate_gauss oob leggauss nmax nmax [b] = Ok [M] -> rotate_gauss oob leggauss nmax nmax [inverse_axes b] = Ok [M'] ->
  forall i j, (i < nmax * (nmax + 2))%nat -> (j < nmax * (nmax + 2))%nat -> entry M' i j = entry M j i.
Proof.
  intros HG Hn Hb E E' i j Hi Hj. apply (rot_transpose nmax b (entry M) (entry M')); try assumption.
  - eapply single; eassumption.
  - eapply single; try eassumption. apply inverse_rho, Hb.
Qed.

Lemma rotations_multiply oob leggauss nmax b b' M M' M'' :
  gauss_legendre leggauss -> (1 <= nmax)%nat -> right_handed_axes b -> right_handed_axes b' ->
  rotate_gauss oob leggauss nmax nmax [b] = Ok [M] -> rotate_gauss oob leggauss nmax nmax [b'] = Ok [M'] ->
  rotate_gauss oob leggauss nmax nmax [axes_along b b'] = Ok [M''] ->
  forall i j, (i < nmax * (nmax + 2))%nat -> (j < nmax * (nmax + 2))%nat ->
    entry M'' i j = Rsum (map (fun l => entry M i l * entry M' l j) (seq 0 (nmax * (nmax + 2)))).
Proof.
  intros HG Hn Hb Hb' E E' E'' i j Hi Hj. apply (rot_compose nmax b b' (entry M) (entry M') (entry M'')); try assumption.
  - eapply single; eassumption.
  - eapply single; eassumption.
  - eapply single; try eassumption. apply then_rho; assumption.
Qed.

Lemma geographic_rho : right_handed_axes geographic_axes.
Proof. cbn. unfold right_handed_orthonormal, unit_vec, vdot, vprod. cbn [vx vy vz]. repeat split; try ring. f_equal; ring. Qed.

Lemma identity_matrix oob leggauss nmax : gauss_legendre leggauss -> (1 <= nmax)%nat ->
  exists M, rotate_gauss oob leggauss nmax nmax [geographic_axes] = Ok [M] /\
    forall i j, (i < nmax * (nmax + 2))%nat -> (j < nmax * (nmax + 2))%nat -> entry M i j = delta i j.
Proof.
  intros HG Hn. destruct (single_exists oob leggauss nmax nmax geographic_axes HG Hn Hn geographic_rho) as [M E].
  exists M. split; [exact E|]. apply rot_identity. eapply single; try eassumption. apply geographic_rho.
Qed.

Lemma results_exist oob leggauss nmax b b' : gauss_legendre leggauss -> (1 <= nmax)%nat ->
  right_handed_axes b -> right_handed_axes b' ->
  (exists M, rotate_gauss oob leggauss nmax nmax [b] = Ok [M]) /\
  (exists M, rotate_gauss oob leggauss nmax nmax [inverse_axes b] = Ok [M]) /\
  exists M, rotate_gauss oob leggauss nmax nmax [axes_along b b'] = Ok [M].
Proof.
  intros HG Hn Hb Hb'. split; [|split]; apply single_exists; try assumption; [apply inverse_rho, Hb|apply then_rho; assumption].
Qed.

Lemma spectrum_rotates oob leggauss argsort cfg file nmax kmax qfunc step N (sm : bool) reference sc start axis :
  gauss_legendre leggauss -> sorts_indices argsort -> (1 <= nmax)%nat -> (1 <= kmax)%nat -> Nat.Odd N -> 0 < step ->
  (sc = FlagBool true \/ sc = FlagBool false) -> lower reference = (if sm then "sm" else "gsm")%string ->
  -10 ^ 7 <= start -> start + INR N * step / 24 < 36159.75 -> dipole_to_vec cfg DNone = Ok axis -> unit_vec axis -> 1 / 4 <= vz axis ^ 2 ->
  forall time j, (forall i, valid (sh time) i -> (j i < N)%nat /\ at_ time i = sample_time step start (j i) - start) ->
  exists F S FI SI M,
    rotate_gauss_fft oob leggauss argsort cfg file nmax kmax qfunc (Some step) (Some N) None (Some reference) sc (Some start) = Ok (F, S, FI, SI) /\
    synth_rotate_gauss time F S sc = Ok M /\ sh M = (sh time ++ [nmax * (nmax + 2); kmax * (kmax + 2)])%nat%list /\
    forall i, valid (sh time) i -> exists e1 e2 e3,
      frame_of (if sm then SM else GSM) axis (sun_direction (at_ time i + start)) e1 e2 e3 /\
      forall v, List.length v = (kmax * (kmax + 2))%nat ->
      forall theta phi theta' phi', same_direction (e1, e2, e3) theta phi theta' phi' ->
        expand nmax (times (fun r c => at_ M (i ++ [r; c])) v) theta phi =
        expand (Nat.min nmax kmax) (fun k => nth k v 0) theta' phi'.
Proof.
  intros HG Hs Hn Hk HO Hst Hsc Hr Hbeg Hend Hax Hu Hz time j Ht.
  destruct (fft_frames oob leggauss argsort cfg file nmax kmax qfunc step N sm reference sc start axis HG Hs Hn Hk HO Hst Hsc Hr Hbeg Hend Hax Hu Hz time j Ht)
    as (F & S & FI & SI & M & E1 & E2 & E3 & E4).
  exists F, S, FI, SI, M. split; [exact E1|]. split; [exact E2|]. split; [exact E3|]. intros i Hi.
  destruct (E4 i Hi) as (e1 & e2 & e3 & Hf & HR). exists e1, e2, e3. split; [exact Hf|]. intros v Lv theta phi theta' phi' D.
  assert (Hb : is_rho (e1, e2, e3)) by (destruct sm; apply Hf).
  exact (rot_times nmax kmax (e1, e2, e3) _ v HR Lv Hb _ _ _ _ D).
Qed.

Lemma spectrum_case : exists axis, dipole_to_vec (-29442, -1501, 4797.1) DNone = Ok axis /\ unit_vec axis /\ 1 / 4 <= vz axis ^ 2 /\
  -10 ^ 7 <= 8766 /\ 8766 + INR 29 * 3 / 24 < 36159.75 /\ Nat.Odd 29 /\ lower "GSM" = "gsm"%string.
Proof.
  destruct W_Coord.default_axis as (axis & E & U & Z & _). exists axis. split; [exact E|]. split; [exact U|]. split; [exact Z|].
  split; [lra|]. split; [rewrite INR_IZR_INZ; change (Z.of_nat 29) with 29%Z; lra|]. split; [exists 14%nat; reflexivity|reflexivity].
Qed.

Lemma analysis_rotated oob leggauss nmax kmax b M v func :
  gauss_legendre leggauss -> (1 <= nmax)%nat -> (1 <= kmax)%nat -> right_handed_axes b ->
  rotate_gauss oob leggauss nmax kmax [b] = Ok [M] -> List.length v = (kmax * (kmax + 2))%nat ->
  (forall theta phi theta' phi', same_direction b theta phi theta' phi' -> func theta phi = expand kmax (fun i => nth i v 0) theta' phi') ->
  sh_analysis oob leggauss func nmax (Some kmax) = Ok (map (times (entry M) v) (seq 0 (nmax * (nmax + 2)))).
Proof.
  intros HG Hn Hk Hb E Lv EF. apply (analysis_of_rotated oob leggauss nmax kmax b); try assumption. eapply single; eassumption.
Qed.

Lemma rotated_field_exists b kmax v : right_handed_axes b -> exists func,
  forall theta phi theta' phi', same_direction b theta phi theta' phi' -> func theta phi = expand kmax (fun i => nth i v 0) theta' phi'.
Proof.
  intros Hb. exists (fun theta phi => let q := geo_to_base theta phi b false in expand kmax (fun i => nth i v 0) (fst q) (snd q)).
  intros theta phi theta' phi' D. cbv zeta. rewrite !expand_Y. apply Rsum_map_ext. intros i _. f_equal. apply Y_direction.
  pose proof (q_direction b theta phi Hb) as Q. cbv zeta in Q. rewrite Q. destruct b as [[e1 e2] e3]. symmetry. exact D.
Qed.
