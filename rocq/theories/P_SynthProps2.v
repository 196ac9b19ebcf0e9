(** Proofs behind Props_Synth, part 2. *)
From Coq Require Import Reals List Arith ZArith String Bool Lia Lra.
From Coquelicot Require Import Coquelicot.
From Verif Require Import M_Prelude M_ND P_ND Spec_Legendre Spec_Field M_Legendre P_LegendreTab M_Synth M_SynthArr
  P_Synth P_SynthArr P_SynthClosed P_Layout P_Design P_SynthProps.
Import ListNotations.
Open Scope R_scope.

(** ** C18: positions *)
Lemma count_full nmax n : (1 <= n <= nmax + 1)%nat -> count nmax 1 n = (n * n - 1)%nat.
Proof. intros H. pose proof (count_low nmax 1 n ltac:(lia)). nia. Qed.

Definition gidx (n m : nat) : nat := if (m =? 0)%nat then (n * n - 1)%nat else (n * n + 2 * m - 2)%nat.
Definition hidx (n m : nat) : nat := (n * n - 1 + 2 * m)%nat.

Lemma range_ext_gauss nmin nmax mmax g h g' h' :
  (forall n m, (nmin <= n <= nmax)%nat -> (m <= n)%nat -> g n m = g' n m /\ h n m = h' n m) ->
  gauss_list nmin nmax mmax g h = gauss_list nmin nmax mmax g' h'.
Proof.
  intros H. unfold gauss_list. rewrite !flat_map_concat_map. f_equal. apply map_ext_in. intros n Hn.
  apply range_incl_spec in Hn. f_equal; [apply H; lia|]. rewrite !flat_map_concat_map. f_equal. apply map_ext_in.
  intros m Hm. apply range_incl_spec in Hm. destruct (H n m) as [-> ->]; [lia|lia|reflexivity].
Qed.

Lemma gauss_positions nmax (c : list R) : (nmax * (nmax + 2) <= List.length c)%nat ->
  exists rest, c = gauss_list 1 nmax nmax (fun n m => nth (gidx n m) c 0) (fun n m => nth (hidx n m) c 0) ++ rest.
Proof.
  intros L. assert (C : count nmax 1 (nmax + 1) = (nmax * (nmax + 2))%nat) by (rewrite count_full; nia).
  exists (skipn (count nmax 1 (nmax + 1)) c).
  rewrite (gauss_rep nmax 1 c nmax) at 1; [|lia|lia]. f_equal. apply range_ext_gauss.
  intros n m Hn Hm. unfold gof, hof, gpos, hpos, gidx, hidx. rewrite count_full by lia.
  split.
  - destruct (Nat.eqb_spec m 0); f_equal; nia.
  - reflexivity.
Qed.

(** The positions are a bijection. *)
Lemma sq_unique n n' k : (n * n <= k < (n + 1) * (n + 1))%nat -> (n' * n' <= k < (n' + 1) * (n' + 1))%nat -> n = n'.
Proof. intros A B. nia. Qed.

Lemma positions_cover nmax k : (k < nmax * (nmax + 2))%nat ->
  exists n m, (1 <= n <= nmax)%nat /\ (m <= n)%nat /\ (k = gidx n m \/ (1 <= m)%nat /\ k = hidx n m).
Proof.
  intros Hk. set (n := Nat.sqrt (k + 1)).
  pose proof (Nat.sqrt_spec (k + 1) ltac:(lia)) as S. fold n in S. unfold lt in S.
  assert (Hn : (1 <= n)%nat) by (destruct n; [cbn in S; lia|lia]).
  assert (Hn2 : (n <= nmax)%nat) by nia.
  destruct (Nat.eq_dec (k + 1) (n * n)) as [E|E].
  - exists n, 0%nat. split; [lia|]. split; [lia|]. left. unfold gidx. cbn. lia.
  - destruct (Nat.Even_or_Odd (k + 1 - n * n)) as [[j Hj]|[j Hj]].
    + exists n, j. split; [lia|]. split; [nia|]. right. unfold hidx. split; nia.
    + exists n, (j + 1)%nat. split; [lia|]. split; [nia|]. left. unfold gidx.
      destruct (Nat.eqb_spec (j + 1) 0); [lia|]. nia.
Qed.

Lemma positions_inj n m n' m' : (1 <= n)%nat -> (m <= n)%nat -> (1 <= n')%nat -> (m' <= n')%nat ->
  (gidx n m = gidx n' m' -> n = n' /\ m = m') /\
  ((1 <= m)%nat -> (1 <= m')%nat -> hidx n m = hidx n' m' -> n = n' /\ m = m') /\
  ((1 <= m')%nat -> gidx n m <> hidx n' m').
Proof.
  intros H1 H2 H3 H4.
  assert (G : forall n m, (1 <= n)%nat -> (m <= n)%nat -> (n * n <= gidx n m + 1 < (n + 1) * (n + 1))%nat).
  { intros i j Hi Hj. unfold gidx. destruct (Nat.eqb_spec j 0); nia. }
  assert (K : forall n m, (1 <= n)%nat -> (m <= n)%nat -> (n * n <= hidx n m + 1 < (n + 1) * (n + 1))%nat).
  { intros i j Hi Hj. unfold hidx. nia. }
  split; [|split].
  - intros E. pose proof (G n m H1 H2) as A. pose proof (G n' m' H3 H4) as B. rewrite <- E in B.
    pose proof (sq_unique _ _ _ A B) as ->. split; [reflexivity|]. unfold gidx in E.
    destruct (Nat.eqb_spec m 0), (Nat.eqb_spec m' 0); nia.
  - intros _ _ E. pose proof (K n m H1 H2) as A. pose proof (K n' m' H3 H4) as B. rewrite <- E in B.
    pose proof (sq_unique _ _ _ A B) as ->. split; [reflexivity|]. unfold hidx in E. nia.
  - intros Hm E. pose proof (G n m H1 H2) as A. pose proof (K n' m' H3 H4) as B. rewrite <- E in B.
    pose proof (sq_unique _ _ _ A B) as ->. unfold gidx, hidx in E. destruct (Nat.eqb_spec m 0); nia.
Qed.

(** ** C24 *)
Lemma broadcast_snoc_nil a b c : broadcast [a; b; c; []] = broadcast [a; b; c].
Proof.
  unfold broadcast. cbn [fold_left]. set (r := bind _ _) at 2.
  assert (X : forall r : result (list nat), bind r (fun t => match bshape t [] with Some u => Ok u | None => Err ValueError end) = r).
  { intros [t|e]; [|reflexivity]. cbn [bind]. unfold bshape. cbn [rev].
    replace (bc_rev (rev t) []) with (Some (rev t)) by (destruct (rev t); reflexivity). cbn. now rewrite rev_involutive. }
  rewrite X. reflexivity.
Qed.

Lemma orZ_design nmin : orZ (Some nmin) 1 = nmin. Proof. reflexivity. Qed.

Lemma C24 oob a l radius theta phi nmin nmax mmax source G F :
  design_gauss oob a radius theta phi nmax nmin mmax source = Ok G ->
  synth_values oob a (cvec l) radius theta phi nmin (Some nmax) (Some (orZ mmax nmax)) source false = Ok F ->
  f_sh F = g_sh G /\
  forall x,
    f_r F x = Rsum (map (fun k => g_r G x k * nth k l 0) (seq 0 (g_dim G))) /\
    f_t F x = Rsum (map (fun k => g_t G x k * nth k l 0) (seq 0 (g_dim G))) /\
    f_p F x = Rsum (map (fun k => g_p G x k * nth k l 0) (seq 0 (g_dim G))).
Proof.
  intros EG EF. destruct (design_gauss_spec _ _ _ _ _ _ _ _ _ _ EG) as (s & poles & B1 & B2 & B3 & B4 & B5 & B6 & B7).
  destruct (sv_at _ _ _ _ _ _ _ _ _ _ _ _ EF) as (d & D & S & P).
  destruct (decode_nogrid _ _ _ _ _ _ _ _ _ D) as (D1 & D2 & D3 & D4 & D5 & D6 & D7). cbn [infer_nmax] in D7.
  destruct D7 as (D7 & D8 & D9 & D10).
  cbn [csh cvec] in D4. rewrite broadcast_snoc_nil, B5 in D4. injection D4 as D4.
  split; [congruence|]. intros x. specialize (P x). unfold run_point in P. rewrite crow_cvec in P.
  rewrite D1, D2, D8, D9, D10 in P. rewrite B3 in D5. injection D5 as D5. rewrite B4 in D3. injection D3 as D3.
  rewrite <- D5, <- D3 in P.
  (* the kernel only reads the first g_dim coefficients *)
  destruct (Nat.le_gt_cases (g_dim G) (List.length l)) as [L|L].
  - destruct (point_weights oob s a (Z.to_nat (orZ nmin 1)) (Z.to_nat nmax) (Z.to_nat (orZ mmax nmax)) poles
       (bread radius x) (bread theta x) (bread phi x) ltac:(lia)) as (w & W).
    rewrite <- B6 in W. pose proof (W l L) as W1. pose proof (W (firstn (g_dim G) l)) as W2.
    assert (LN : List.length (firstn (g_dim G) l) = g_dim G) by (rewrite firstn_length; lia).
    specialize (W2 ltac:(lia)). rewrite (B7 x _ LN) in W2. rewrite P in W1.
    assert (X : forall A, dot A (firstn (g_dim G) l) (g_dim G) = dot A l (g_dim G)).
    { intros A. unfold dot. apply Rsum_map_ext. intros i Hi. apply in_seq in Hi.
      rewrite <- (firstn_skipn (g_dim G) l) at 2. rewrite app_nth1 by lia. reflexivity. }
    rewrite !X in W2. injection W1 as -> -> ->. injection W2 as <- <- <-. repeat split; reflexivity.
  - exfalso.
    unfold synth_point in P. destruct (legendre_poly oob (Z.to_nat nmax) (bread theta x)); [|discriminate]. cbn [bind] in P.
    match type of P with context [for_rangeM ?u ?v (synth_n ?s ?r ?P ?sn ?po ?ph ?c ?mm) ?y] =>
      destruct (synth_n_cases s r P sn po ph c mm (Z.to_nat (orZ nmin 1)) (Z.to_nat nmax) y) as [X|(z & X & Y & Z)] end.
    + lia.
    + reflexivity.
    + rewrite X in P. discriminate.
    + rewrite Y in Z. rewrite <- B6 in Z. lia.
Qed.

(** ** C32: too few coefficients *)
Lemma too_few oob a c radius theta phi nmin nmax mmax s gsh :
  (1 <= nmin <= nmax)%nat -> elems theta <> [] -> (forall t, In t (elems theta) -> 0 <= t <= 180) ->
  broadcast [sh radius; sh theta; sh phi; csh c] = Ok gsh ->
  (cdim c < count mmax nmin (nmax + 1))%nat ->
  synth_values oob a c radius theta phi (Some (Z.of_nat nmin)) (Some (Z.of_nat nmax)) (Some (Z.of_nat mmax)) (Some (src_name s)) false = Err IndexError.
Proof.
  intros Hn Hne Ht B C.
  pose proof (synth_values_decode oob a c radius theta phi (Some (Z.of_nat nmin)) (Some (Z.of_nat nmax)) (Some (Z.of_nat mmax)) (Some (src_name s)) false) as H.
  destruct (check_poles_ok _ Hne Ht) as (b & Eb & _).
  unfold decode in H. rewrite Eb in H. cbn [bind orZ infer_nmax] in H.
  destruct (Z.leb_spec (Z.of_nat nmin) 0); [lia|]. destruct (Z.ltb_spec (Z.of_nat nmax) (Z.of_nat nmin)); [lia|].
  unfold gridded in H. cbn [bind fst snd] in H. rewrite B, parse_src_name in H. cbn [bind] in H. rewrite !Nat2Z.id in H.
  assert (X : forall x, run_point oob a c radius (mkdec b s nmin nmax mmax theta phi gsh) x = Err IndexError).
  { intros x. unfold run_point. cbn [e_nmin e_nmax e_mmax e_s e_poles e_theta e_phi]. unfold synth_point.
    destruct (legendre_poly oob nmax (bread theta x)) as [P|] eqn:EP.
    2:{ exfalso. unfold legendre_poly in EP. destruct (Nat.eqb_spec nmax 0); [lia|discriminate]. }
    cbn [bind].
    match goal with |- context [for_rangeM ?u ?v (synth_n ?s ?r ?P ?sn ?po ?ph ?c ?mm) ?y] =>
      destruct (synth_n_cases s r P sn po ph c mm nmin nmax y) as [X|(z & X & Y & Z)] end.
    - lia.
    - reflexivity.
    - rewrite X. reflexivity.
    - rewrite Y, crow_length in Z. lia. }
  destruct (synth_values _ _ _ _ _ _ _ _ _ _ _) as [F|e].
  - destruct H as [_ H]. specialize (H []). rewrite X in H. discriminate.
  - specialize (H []). rewrite X in H. congruence.
Qed.

(** ** C26 *)
Lemma dot_lin w (l1 l2 l3 : list R) al be N :
  (forall k, (k < N)%nat -> nth k l3 0 = al * nth k l1 0 + be * nth k l2 0) ->
  dot w l3 N = al * dot w l1 N + be * dot w l2 N.
Proof.
  intros H. unfold dot. rewrite <- !Rsum_map_scal, <- Rsum_map_plus. apply Rsum_map_ext.
  intros k Hk. apply in_seq in Hk. rewrite H by lia. ring.
Qed.

Lemma crow_nth c x k : (k < cdim c)%nat -> nth k (crow c x) 0 = cat c (bidx (csh c) x) k.
Proof.
  intros H. unfold crow. rewrite (nth_indep _ 0 (cat c (bidx (csh c) x) 0%nat)) by (rewrite map_length, seq_length; exact H).
  rewrite map_nth, seq_nth by exact H. reflexivity.
Qed.

Definition lincomb (al be : R) (c1 c2 : carr) : carr :=
  mkcarr (csh c1) (cdim c1) (fun x k => al * cat c1 x k + be * cat c2 x k).

Lemma C26 oob a c1 c2 al be radius theta phi nmin nmax mmax source grid F1 F2 :
  csh c2 = csh c1 -> cdim c2 = cdim c1 ->
  synth_values oob a c1 radius theta phi nmin nmax mmax source grid = Ok F1 ->
  synth_values oob a c2 radius theta phi nmin nmax mmax source grid = Ok F2 ->
  exists F3, synth_values oob a (lincomb al be c1 c2) radius theta phi nmin nmax mmax source grid = Ok F3 /\
    f_sh F3 = f_sh F1 /\
    forall x, f_r F3 x = al * f_r F1 x + be * f_r F2 x /\
              f_t F3 x = al * f_t F1 x + be * f_t F2 x /\
              f_p F3 x = al * f_p F1 x + be * f_p F2 x.
Proof.
  intros Hs Hd E1 E2.
  destruct (sv_at _ _ _ _ _ _ _ _ _ _ _ _ E1) as (d & D1 & S1 & P1).
  destruct (sv_at _ _ _ _ _ _ _ _ _ _ _ _ E2) as (d2 & D2 & S2 & P2).
  assert (X2 : decode c2 radius theta phi nmin nmax mmax source grid = decode c1 radius theta phi nmin nmax mmax source grid)
    by (unfold decode; rewrite Hs, Hd; reflexivity).
  rewrite X2, D1 in D2. injection D2 as <-.
  pose proof (synth_values_decode oob a (lincomb al be c1 c2) radius theta phi nmin nmax mmax source grid) as H.
  change (decode (lincomb al be c1 c2) radius theta phi nmin nmax mmax source grid) with (decode c1 radius theta phi nmin nmax mmax source grid) in H.
  rewrite D1 in H. pose proof (decode_bounds _ _ _ _ _ _ _ _ _ _ D1) as Hb.
  assert (CC : (count (e_mmax d) (e_nmin d) (e_nmax d + 1) <= cdim c1)%nat).
  { specialize (P1 []). unfold run_point, synth_point in P1.
    destruct (legendre_poly oob (e_nmax d) (bread (e_theta d) [])); [|discriminate]. cbn [bind] in P1.
    match type of P1 with context [for_rangeM ?u ?v (synth_n ?s ?r ?P ?sn ?po ?ph ?c ?mm) ?y] =>
      destruct (synth_n_cases s r P sn po ph c mm (e_nmin d) (e_nmax d) y) as [X|(z & X & Y & Z)] end.
    - lia.
    - reflexivity.
    - rewrite X in P1. discriminate.
    - rewrite Y, crow_length in Z. exact Z. }
  assert (W : forall x, run_point oob a (lincomb al be c1 c2) radius d x =
     Ok (al * f_r F1 x + be * f_r F2 x, al * f_t F1 x + be * f_t F2 x, al * f_p F1 x + be * f_p F2 x)).
  { intros x. unfold run_point in *. specialize (P1 x). specialize (P2 x).
    destruct (point_weights oob (e_s d) a (e_nmin d) (e_nmax d) (e_mmax d) (e_poles d)
       (bread radius x) (bread (e_theta d) x) (bread (e_phi d) x) Hb) as (w & W).
    rewrite W in P1 by (rewrite crow_length; exact CC). rewrite W in P2 by (rewrite crow_length, Hd; exact CC).
    rewrite W by (rewrite crow_length; exact CC).
    injection P1 as <- <- <-. injection P2 as <- <- <-.
    f_equal. f_equal; [f_equal|]; apply dot_lin; intros k Hk; rewrite !crow_nth by (rewrite ?Hd; cbn; lia); cbn; rewrite Hs; reflexivity. }
  destruct (synth_values oob a (lincomb al be c1 c2) radius theta phi nmin nmax mmax source grid) as [F3|e].
  - exists F3. split; [reflexivity|]. destruct H as [H1 H2]. split; [congruence|]. intros x. specialize (H2 x).
    rewrite W in H2. injection H2 as <- <- <-. repeat split; reflexivity.
  - specialize (H []). rewrite W in H. discriminate.
Qed.

(** ** C29 *)
Lemma check_poles_0_200 : check_poles [0; 200] = Ok true.
Proof.
  unfold check_poles, amin, amax. cbn [bind fold_left]. rewrite Rmin_left, Rmax_right by lra.
  destruct (Rle_dec 0 0); [|lra]. destruct (Req_EM_T 0 0); [reflexivity|lra].
Qed.

Lemma C29_partial oob a c radius theta phi nmin nmax mmax source grid :
  (exists t, In t (elems theta) /\ (t < 0 \/ 180 < t)) ->
  ~ In 0 (elems theta) -> ~ In 180 (elems theta) ->
  synth_values oob a c radius theta phi nmin nmax mmax source grid = Err ValueError.
Proof.
  intros (t & Ht & Hb) H0 H180.
  assert (E : check_poles (elems theta) = Err ValueError).
  { destruct (elems theta) as [|x l]; [destruct Ht|]. unfold check_poles, amin, amax. cbn [bind].
    destruct (fold_Rmin l x) as [A1 A2]. destruct (fold_Rmax l x) as [B1 B2].
    set (mn := fold_left Rmin l x) in *. set (mx := fold_left Rmax l x) in *.
    assert (N0 : mn <> 0) by (intros E; apply H0; rewrite <- E; exact A1).
    assert (N1 : mx <> 180) by (intros E; apply H180; rewrite <- E; exact B1).
    pose proof (A2 _ Ht). pose proof (B2 _ Ht).
    destruct (Req_EM_T mn 0); [contradiction|]. destruct (Req_EM_T mx 180); [contradiction|].
    destruct (Rle_dec mn 0); [reflexivity|]. destruct (Rle_dec 180 mx); [reflexivity|]. lra. }
  unfold synth_values. rewrite E. reflexivity.
Qed.
