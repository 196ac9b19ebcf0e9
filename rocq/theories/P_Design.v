(** design_gauss and synth_values: the rows of the design matrices applied to
    the coefficients give the field. *)
From Coq Require Import Reals List Arith ZArith String Bool Lia Lra.
From Verif Require Import M_Prelude M_ND P_ND Spec_Field M_Legendre M_Synth M_SynthArr P_Synth P_SynthArr P_Layout.
Import ListNotations.
Open Scope R_scope.

Definition dot (A : nat -> R) (c : list R) (k : nat) : R := Rsum (map (fun i => A i * nth i c 0) (seq 0 k)).

Lemma dot_S A c k : dot A c (S k) = dot A c k + A k * nth k c 0.
Proof. unfold dot. rewrite seq_S, map_app. cbn [map]. rewrite Rsum_snoc. reflexivity. Qed.

Lemma dot_ext A B c k : (forall i, (i < k)%nat -> A i = B i) -> dot A c k = dot B c k.
Proof. intros H. unfold dot. apply Rsum_map_ext. intros i Hi. apply in_seq in Hi. rewrite H by lia. reflexivity. Qed.

Lemma getc_nth c i v : getc c i = Ok v -> nth i c 0 = v.
Proof. unfold getc. destruct (nth_error c i) eqn:E; [|discriminate]. intros H. injection H as <-. apply nth_error_nth, E. Qed.

Section At.
Variables (s : src) (r : nd R) (P : list nat -> tab) (sinth : list nat -> R) (poles : bool) (theta phi : nd R)
          (mmax : nat) (x : list nat) (c : list R).
Let dim := List.length c.
Let pole := (poles && is_pole (bread theta x))%bool.

Definition drel (y : dacc) (z : acc) : Prop :=
  d_num y = a_num z /\ d_rn y x = a_rn z /\
  dot (d_r y x) c (d_num y) = a_br z /\ dot (d_t y x) c (d_num y) = a_bt z /\ dot (d_p y x) c (d_num y) = a_bp z /\
  (forall k, (d_num y <= k)%nat -> d_p y x k = 0).

Lemma setA_ok A i v : (i < dim)%nat -> setA dim A i v = Ok (fun x k => if (k =? i)%nat then v x else A x k).
Proof. intros H. unfold setA. apply Nat.ltb_lt in H. now rewrite H. Qed.
Lemma setA_err A i v : (dim <= i)%nat -> setA dim A i v = Err IndexError.
Proof. intros H. unfold setA. apply Nat.ltb_ge in H. now rewrite H. Qed.

Lemma dot_set2 (A : list nat -> nat -> R) k v w :
  dot (fun j => if (j =? k + 1)%nat then w x else if (j =? k)%nat then v x else A x j) c (k + 2)
  = dot (A x) c k + v x * nth k c 0 + w x * nth (k + 1) c 0.
Proof.
  replace (k + 2)%nat with (S (S k)) by lia. rewrite !dot_S.
  replace (S k =? k + 1)%nat with true by (symmetry; apply Nat.eqb_eq; lia).
  replace (k =? k + 1)%nat with false by (symmetry; apply Nat.eqb_neq; lia). rewrite Nat.eqb_refl.
  rewrite (dot_ext _ (A x)). 2:{ intros i Hi. destruct (Nat.eqb_spec i (k+1)); [lia|]. destruct (Nat.eqb_spec i k); [lia|reflexivity]. }
  replace (S k) with (k + 1)%nat by lia. ring.
Qed.

Lemma dot_set1 (A : list nat -> nat -> R) k v :
  dot (fun j => if (j =? k)%nat then v x else A x j) c (k + 1) = dot (A x) c k + v x * nth k c 0.
Proof.
  replace (k + 1)%nat with (S k) by lia. rewrite dot_S, Nat.eqb_refl.
  rewrite (dot_ext _ (A x)); [reflexivity|]. intros i Hi. destruct (Nat.eqb_spec i k); [lia|reflexivity].
Qed.

Lemma div_PA_at' n m : div_PA P sinth poles theta n m x = div_P (P x) (sinth x) pole n m.
Proof. apply div_PA_at. Qed.

Lemma design_mA_at n y z m : drel y z ->
  (exists e, design_mA dim s P sinth poles theta phi n y m = Err e /\
             synth_m s (P x) (sinth x) pole (radians (bread phi x)) c n z m = Err e) \/
  exists y' z', design_mA dim s P sinth poles theta phi n y m = Ok y' /\
             synth_m s (P x) (sinth x) pole (radians (bread phi x)) c n z m = Ok z' /\ drel y' z'.
Proof.
  intros (E0 & E1 & E2 & E3 & E4 & E5). unfold design_mA, synth_m. rewrite <- E0.
  destruct (Nat.lt_ge_cases (d_num y) dim) as [L|L].
  2:{ left. exists IndexError. rewrite setA_err, getc_err by assumption. split; reflexivity. }
  destruct (Nat.lt_ge_cases (d_num y + 1) dim) as [L1|L1].
  2:{ left. exists IndexError. rewrite setA_ok by assumption. cbn [bind]. rewrite setA_err by assumption.
      destruct (getc_cases c (d_num y)) as [G|[v [G _]]]; rewrite G; cbn [bind]; split; try reflexivity.
      rewrite getc_err by assumption. reflexivity. }
  repeat (rewrite setA_ok by assumption; cbn [bind]).
  destruct (getc_cases c (d_num y)) as [G|[v [G _]]].
  { exfalso. unfold getc in G. destruct (nth_error c (d_num y)) eqn:F; [discriminate|]. apply nth_error_None in F. unfold dim in L. lia. }
  destruct (getc_cases c (d_num y + 1)) as [G1|[v1 [G1 _]]].
  { exfalso. unfold getc in G1. destruct (nth_error c (d_num y + 1)) eqn:F; [discriminate|]. apply nth_error_None in F. unfold dim in L1. lia. }
  rewrite G, G1. cbn [bind]. apply getc_nth in G. apply getc_nth in G1.
  right. do 2 eexists. split; [reflexivity|]. split; [reflexivity|].
  unfold drel. cbn [d_num d_rn d_r d_t d_p a_num a_rn a_br a_bt a_bp].
  split; [reflexivity|]. split; [exact E1|].
  rewrite (dot_set2 (d_r y) (d_num y)
    (fun x => (match s with Internal => INR (n+1) | External => - INR n end) * P x n m * d_rn y x * cos (INR m * radians (bread phi x)))
    (fun x => (match s with Internal => INR (n+1) | External => - INR n end) * P x n m * d_rn y x * sin (INR m * radians (bread phi x)))).
  rewrite (dot_set2 (d_t y) (d_num y)
    (fun x => - P x m (n + 1)%nat * d_rn y x * cos (INR m * radians (bread phi x)))
    (fun x => - P x m (n + 1)%nat * d_rn y x * sin (INR m * radians (bread phi x)))).
  rewrite (dot_set2 (d_p y) (d_num y)
    (fun x => INR m * div_PA P sinth poles theta n m x * d_rn y x * sin (INR m * radians (bread phi x)))
    (fun x => - INR m * div_PA P sinth poles theta n m x * d_rn y x * cos (INR m * radians (bread phi x)))).
  rewrite E2, E3, E4, E1, G, G1, div_PA_at'.
  split; [destruct s; ring|]. split; [ring|]. split; [ring|].
  intros k Hk. destruct (Nat.eqb_spec k (d_num y + 1)); [lia|]. destruct (Nat.eqb_spec k (d_num y)); [lia|]. apply E5. lia.
Qed.

Lemma design_nA_at y z n : drel y z ->
  (exists e, design_nA dim s r P sinth poles theta phi mmax y n = Err e /\
             synth_n s (bread r x) (P x) (sinth x) pole (radians (bread phi x)) c mmax z n = Err e) \/
  exists y' z', design_nA dim s r P sinth poles theta phi mmax y n = Ok y' /\
             synth_n s (bread r x) (P x) (sinth x) pole (radians (bread phi x)) c mmax z n = Ok z' /\ drel y' z'.
Proof.
  intros (E0 & E1 & E2 & E3 & E4 & E5). unfold design_nA, synth_n. rewrite <- E0.
  destruct (Nat.lt_ge_cases (d_num y) dim) as [L|L].
  2:{ left. exists IndexError. rewrite setA_err, getc_err by assumption. split; reflexivity. }
  repeat (rewrite setA_ok by assumption; cbn [bind]).
  destruct (getc_cases c (d_num y)) as [G|[v [G _]]].
  { exfalso. unfold getc in G. destruct (nth_error c (d_num y)) eqn:F; [discriminate|]. apply nth_error_None in F. unfold dim in L. lia. }
  rewrite G. cbn [bind]. apply getc_nth in G.
  match goal with |- context [for_rangeM 1 ?b ?f (mkdacc ?q1 ?q2 ?q3 ?q4 ?q5)] =>
    match goal with |- context [for_rangeM 1 b ?g (mkacc ?p1 ?p2 ?p3 ?p4 ?p5)] =>
      destruct (for_rangeM_sim (fun _ => drel) 1 b f g (mkdacc q1 q2 q3 q4 q5) (mkacc p1 p2 p3 p4 p5))
        as [(e & F1 & F2)|(y' & z' & F1 & F2 & H0 & H1 & H2 & H3 & H4 & H5)]
    end end.
  - lia.
  - unfold drel. cbn [d_num d_rn d_r d_t d_p a_num a_rn a_br a_bt a_bp].
    split; [reflexivity|]. split; [exact E1|].
    rewrite (dot_set1 (d_r y) (d_num y) (fun x => (match s with Internal => INR (n+1) | External => - INR n end) * P x n 0%nat * d_rn y x)).
    rewrite (dot_set1 (d_t y) (d_num y) (fun x => - P x 0%nat (n + 1)%nat * d_rn y x)).
    rewrite E2, E3, E1, G. split; [destruct s; ring|]. split; [ring|]. split.
    + replace (d_num y + 1)%nat with (S (d_num y)) by lia. rewrite dot_S, E4, E5 by lia. ring.
    + intros k Hk. apply E5. lia.
  - intros i y1 z1 _ H. apply design_mA_at, H.
  - rewrite F1, F2. left; eexists; split; reflexivity.
  - rewrite F1, F2. cbn [bind]. right. do 2 eexists. split; [reflexivity|]. split; [reflexivity|].
    unfold drel. cbn [d_num d_rn d_r d_t d_p a_num a_rn a_br a_bt a_bp].
    rewrite H0, H1 in *. repeat split; assumption.
Qed.

Lemma design_loop_at nmin nmax y z : drel y z ->
  let F := for_rangeM nmin (nmax + 1) (design_nA dim s r P sinth poles theta phi mmax) y in
  let G := for_rangeM nmin (nmax + 1) (synth_n s (bread r x) (P x) (sinth x) pole (radians (bread phi x)) c mmax) z in
  (exists e, F = Err e /\ G = Err e) \/ exists y' z', F = Ok y' /\ G = Ok z' /\ drel y' z'.
Proof.
  intros H F G. destruct (Nat.le_gt_cases nmin (nmax + 1)) as [L|L].
  - apply (for_rangeM_sim (fun _ => drel)); [exact L|exact H|]. intros i y1 z1 _ H1. apply design_nA_at, H1.
  - right. apply for_rangeM_sim_empty; [lia|exact H].
Qed.
End At.

(** The kernel needs [count] coefficients, and ignores the others. *)
Lemma synth_n_loop_count s r P sinth pole phi c mmax nmin nmax :
  (1 <= nmin <= nmax)%nat -> (count mmax nmin (nmax + 1) <= List.length c)%nat ->
  exists z, for_rangeM nmin (nmax + 1) (synth_n s r P sinth pole phi c mmax) (mkacc 0 (rn_init s r nmin) 0 0 0) = Ok z /\
            a_num z = count mmax nmin (nmax + 1) /\
    for_rangeM nmin (nmax + 1) (synth_n s r P sinth pole phi (firstn (count mmax nmin (nmax + 1)) c) mmax) (mkacc 0 (rn_init s r nmin) 0 0 0) = Ok z.
Proof.
  intros Hn L. set (N := count mmax nmin (nmax + 1)) in *.
  pose proof (gauss_rep mmax nmin c nmax ltac:(lia) L) as E.
  pose proof (blocks_rep mmax nmin c (nmax + 1 - nmin)) as B.
  replace (nmin + (nmax + 1 - nmin))%nat with (nmax + 1)%nat in B by lia. specialize (B L).
  rewrite gauss_list_blk in E. change (rn_init s r nmin) with (rr s r nmin).
  pose proof (synth_n_loop s r P sinth pole phi c _ mmax _ _ nmin _ ltac:(lia) E) as S1.
  replace (nmin + (nmax + 1 - nmin))%nat with (nmax + 1)%nat in S1 by lia.
  eexists. split; [exact S1|]. split.
  - cbn [a_num]. rewrite B, firstn_length. unfold N. lia.
  - unfold N. rewrite <- B.
    pose proof (synth_n_loop s r P sinth pole phi _ [] mmax _ _ nmin _ ltac:(lia) (eq_sym (app_nil_r (flat_map (blk mmax (gof mmax nmin c) (hof mmax nmin c)) (seq nmin (nmax + 1 - nmin)))))) as S2.
    replace (nmin + (nmax + 1 - nmin))%nat with (nmax + 1)%nat in S2 by lia. exact S2.
Qed.

(** Weights of the field at one point. *)
Record rowsat := mkrows { w_r : nat -> R; w_t : nat -> R; w_p : nat -> R }.

Lemma point_weights oob s a nmin nmax mmax poles radius theta phi :
  (1 <= nmin <= nmax)%nat ->
  exists w, forall c, (count mmax nmin (nmax + 1) <= List.length c)%nat ->
    synth_point oob s a nmin nmax mmax poles c radius theta phi =
    Ok (dot (w_r w) c (count mmax nmin (nmax + 1)), dot (w_t w) c (count mmax nmin (nmax + 1)),
        dot (w_p w) c (count mmax nmin (nmax + 1))).
Proof.
  intros Hn. unfold synth_point. destruct (legendre_poly oob nmax theta) as [P|] eqn:EP.
  2:{ exfalso. unfold legendre_poly in EP. destruct (Nat.eqb_spec nmax 0); [lia|discriminate]. }
  cbn [bind]. set (N := count mmax nmin (nmax + 1)).
  set (r := scalar (radius / a)).
  set (D := fun dim => for_rangeM nmin (nmax + 1)
     (design_nA dim s r (fun _ => P) (fun _ => P 1%nat 1%nat) poles (scalar theta) (scalar phi) mmax)
     (mkdacc 0 (fun _ => rn_init s (radius / a) nmin) (fun _ _ => 0) (fun _ _ => 0) (fun _ _ => 0))).
  exists (match D N with Ok y => mkrows (d_r y []) (d_t y []) (d_p y []) | Err _ => mkrows (fun _ => 0) (fun _ => 0) (fun _ => 0) end).
  intros c L. destruct (synth_n_loop_count s (radius / a) P (P 1%nat 1%nat) (poles && is_pole theta) (radians phi) c mmax nmin nmax Hn L)
    as (z & Z1 & Z2 & Z3). fold N in L, Z2, Z3.
  rewrite Z1. cbn [bind].
  pose proof (design_loop_at s r (fun _ => P) (fun _ => P 1%nat 1%nat) poles (scalar theta) (scalar phi) mmax [] (firstn N c) nmin nmax
     (mkdacc 0 (fun _ => rn_init s (radius / a) nmin) (fun _ _ => 0) (fun _ _ => 0) (fun _ _ => 0))
     (mkacc 0 (rn_init s (radius / a) nmin) 0 0 0)) as H.
  assert (LN : List.length (firstn N c) = N) by (rewrite firstn_length; lia).
  rewrite LN in H. fold (D N) in H. cbv zeta in H.
  change (bread r []) with (radius / a) in H. change (bread (scalar theta) []) with theta in H.
  change (bread (scalar phi) []) with phi in H. rewrite Z3 in H.
  destruct H as [(e & _ & X)|(y & z' & E1 & E2 & E3)]; [|discriminate|].
  { unfold drel. cbn. repeat split; try reflexivity. }
  injection E2 as <-. rewrite E1. cbn [w_r w_t w_p].
  destruct E3 as (F0 & _ & F2 & F3 & F4 & _). rewrite <- F2, <- F3, <- F4, F0, Z2.
  assert (X : forall A, dot A (firstn N c) N = dot A c N).
  { intros A. unfold dot. apply Rsum_map_ext. intros i Hi. apply in_seq in Hi.
    rewrite <- (firstn_skipn N c) at 2. rewrite app_nth1 by lia. reflexivity. }
  rewrite !X. reflexivity.
Qed.

(** the three matrices *)
Lemma design_gauss_spec oob a radius theta phi nmax nmin mmax source G :
  design_gauss oob a radius theta phi nmax nmin mmax source = Ok G ->
  let nmin' := orZ nmin 1 in let mmax' := orZ mmax nmax in
  exists s poles,
    (1 <= nmin' <= nmax)%Z /\ (0 <= mmax' <= nmax)%Z /\ parse_source source = Ok s /\
    check_poles (elems theta) = Ok poles /\ broadcast [sh radius; sh theta; sh phi] = Ok (g_sh G) /\
    g_dim G = count (Z.to_nat mmax') (Z.to_nat nmin') (Z.to_nat nmax + 1) /\
    forall x c, List.length c = g_dim G ->
      synth_point oob s a (Z.to_nat nmin') (Z.to_nat nmax) (Z.to_nat mmax') poles c
        (bread radius x) (bread theta x) (bread phi x)
      = Ok (dot (g_r G x) c (g_dim G), dot (g_t G x) c (g_dim G), dot (g_p G x) c (g_dim G)).
Proof.
  unfold design_gauss. cbn [sh]. destruct (broadcast _) as [gsh|] eqn:EB; [|discriminate]. cbn [bind].
  destruct (check_poles (elems theta)) as [poles|] eqn:EC; [|discriminate]. cbn [bind].
  destruct (Z.leb_spec nmax 0) as [|H1]; [discriminate|].
  destruct (Z.ltb_spec nmax (orZ nmin 1)) as [|H2]; [discriminate|].
  destruct (Z.leb_spec (orZ nmin 1) 0) as [|H3]; [discriminate|].
  destruct (Z.ltb_spec nmax (orZ mmax nmax)) as [|H4]; [discriminate|].
  destruct (Z.ltb_spec (orZ mmax nmax) 0) as [|H5]; [discriminate|].
  destruct (parse_source source) as [s|] eqn:ES; [|discriminate]. cbn [bind].
  set (K := Z.to_nat (orZ nmin 1)). set (N := Z.to_nat nmax). set (M := Z.to_nat (orZ mmax nmax)).
  assert (Hc : Z.to_nat (design_dim (orZ nmin 1) nmax (orZ mmax nmax)) = count M K (N + 1)).
  { pose proof (count_design_dim M K N ltac:(lia) ltac:(lia)) as C.
    unfold M, K, N in C. rewrite !Z2Nat.id in C by lia. rewrite <- C. now rewrite Nat2Z.id. }
  rewrite Hc. unfold legendreA. unfold legendre_poly at 1. destruct (Nat.eqb_spec N 0); [lia|]. cbn [bind].
  set (P := fun x => match legendre_poly oob N (bread theta x) with Ok P => P | Err _ => fun _ _ => 0 end).
  set (r := mknd (sh radius) (fun x => at_ radius x / a)).
  set (FF := for_rangeM _ _ _ _). destruct FF as [y|] eqn:EF; [|discriminate]. cbn [bind]. intros H; injection H as <-.
  cbn [g_sh g_dim g_r g_t g_p]. exists s, poles.
  split; [lia|]. split; [lia|]. split; [reflexivity|]. split; [reflexivity|]. split; [reflexivity|]. split; [reflexivity|].
  intros x c L. unfold synth_point.
  assert (HP : legendre_poly oob N (bread theta x) = Ok (P x)).
  { unfold P, legendre_poly. destruct (Nat.eqb_spec N 0); [lia|reflexivity]. }
  rewrite HP. cbn [bind].
  destruct (synth_n_loop_count s (bread radius x / a) (P x) (P x 1%nat 1%nat) (poles && is_pole (bread theta x)) (radians (bread phi x)) c M K N ltac:(lia) ltac:(lia))
    as (z & Z1 & Z2 & _).
  rewrite Z1. cbn [bind].
  pose proof (design_loop_at s r P (fun x => P x 1%nat 1%nat) poles theta phi M x c K N
     (mkdacc 0 (fun x => rn_init s (bread r x) K) (fun _ _ => 0) (fun _ _ => 0) (fun _ _ => 0))
     (mkacc 0 (rn_init s (bread radius x / a) K) 0 0 0)) as H.
  cbv zeta in H. rewrite L in H. unfold FF in EF.
  change (bread r x) with (bread radius x / a) in H. rewrite Z1 in H.
  match type of EF with ?A = _ => match type of H with _ -> (exists e, ?B = Err e /\ _) \/ _ => change A with B in EF end end.
  rewrite EF in H.
  destruct H as [(e & X & _)|(y' & z' & E1 & E2 & E3)]; [|discriminate|].
  { unfold drel. cbn. repeat split; try reflexivity. }
  injection E1 as <-. injection E2 as <-.
  destruct E3 as (F0 & _ & F2 & F3 & F4 & _). rewrite <- F2, <- F3, <- F4, F0, Z2. reflexivity.
Qed.

(** success *)
Lemma design_gauss_ok oob a radius theta phi nmax nmin mmax source s poles gsh :
  (1 <= orZ nmin 1 <= nmax)%Z -> (0 <= orZ mmax nmax <= nmax)%Z -> parse_source source = Ok s ->
  check_poles (elems theta) = Ok poles -> broadcast [sh radius; sh theta; sh phi] = Ok gsh ->
  exists G, design_gauss oob a radius theta phi nmax nmin mmax source = Ok G.
Proof.
  intros H1 H2 ES EC EB. unfold design_gauss. cbn [sh]. rewrite EB, EC. cbn [bind].
  destruct (Z.leb_spec nmax 0); [lia|].
  destruct (Z.ltb_spec nmax (orZ nmin 1)); [lia|].
  destruct (Z.leb_spec (orZ nmin 1) 0); [lia|].
  destruct (Z.ltb_spec nmax (orZ mmax nmax)); [lia|].
  destruct (Z.ltb_spec (orZ mmax nmax) 0); [lia|]. rewrite ES. cbn [bind].
  set (K := Z.to_nat (orZ nmin 1)). set (N := Z.to_nat nmax). set (M := Z.to_nat (orZ mmax nmax)).
  assert (Hc : Z.to_nat (design_dim (orZ nmin 1) nmax (orZ mmax nmax)) = count M K (N + 1)).
  { pose proof (count_design_dim M K N ltac:(lia) ltac:(lia)) as C.
    unfold M, K, N in C. rewrite !Z2Nat.id in C by lia. rewrite <- C. now rewrite Nat2Z.id. }
  rewrite Hc. unfold legendreA. unfold legendre_poly at 1. destruct (Nat.eqb_spec N 0); [lia|]. cbn [bind].
  set (P := fun x => match legendre_poly oob N (bread theta x) with Ok P => P | Err _ => fun _ _ => 0 end).
  set (r := mknd (sh radius) (fun x => at_ radius x / a)).
  set (c := repeat 0 (count M K (N+1))).
  destruct (synth_n_loop_count s (bread r []) (P []) (P [] 1%nat 1%nat) (poles && is_pole (bread theta [])) (radians (bread phi [])) c M K N ltac:(lia))
    as (z & Z1 & Z2 & _). { unfold c. rewrite repeat_length. lia. }
  pose proof (design_loop_at s r P (fun x => P x 1%nat 1%nat) poles theta phi M [] c K N
     (mkdacc 0 (fun x => rn_init s (bread r x) K) (fun _ _ => 0) (fun _ _ => 0) (fun _ _ => 0))
     (mkacc 0 (rn_init s (bread r []) K) 0 0 0)) as HH.
  cbv beta zeta in HH. rewrite Z1 in HH. replace (List.length c) with (count M K (N + 1)) in HH by (unfold c; now rewrite repeat_length).
  destruct HH as [(e & _ & X)|(y' & z' & E1 & E2 & E3)]; [|discriminate|].
  { unfold drel. cbn. repeat split; try reflexivity. }
  match type of E1 with ?A = _ => match goal with |- exists G, bind ?B _ = _ => change B with A end end.
  rewrite E1. cbn [bind]. eauto.
Qed.
