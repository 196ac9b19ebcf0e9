(** Proofs behind Props_Synth, part 3: truncation, pointwise evaluation, symmetries, Laplace. *)
From Coq Require Import Reals List Arith ZArith String Bool Lia Lra.
From Coquelicot Require Import Coquelicot.
From Verif Require Import M_Prelude M_ND P_ND Spec_Legendre Spec_Field M_Legendre P_Legendre P_Legendre2 P_LegendreTab M_Synth M_SynthArr
  P_Synth P_SynthArr P_SynthClosed P_Layout P_Design P_SynthProps P_SynthProps2.
Import ListNotations.
Open Scope R_scope.

(** ** C28 *)
(** coefficients with everything outside degrees K..N set to zero *)
Definition cut (K N : nat) (g : nat -> nat -> R) (n m : nat) : R :=
  if ((K <=? n) && (n <=? N))%nat then g n m else 0.

Lemma cut_in K N g n m : (K <= n <= N)%nat -> cut K N g n m = g n m.
Proof. intros H. unfold cut. destruct (Nat.leb_spec K n), (Nat.leb_spec n N); cbn; try lia. reflexivity. Qed.
Lemma cut_out K N g n m : (n < K \/ N < n)%nat -> cut K N g n m = 0.
Proof. intros H. unfold cut. destruct (Nat.leb_spec K n), (Nat.leb_spec n N); cbn; try lia; reflexivity. Qed.

Lemma range_split a b c : (a <= b + 1)%nat -> (b <= c)%nat -> range_incl a c = range_incl a b ++ range_incl (b + 1) c.
Proof.
  intros H1 H2. unfold range_incl. replace (c + 1 - a)%nat with ((b + 1 - a) + (c + 1 - (b + 1)))%nat by lia.
  rewrite seq_app. do 2 f_equal; lia.
Qed.

Lemma Rsum_cut (f f' : nat -> R) nmin K N nmax : (nmin <= K)%nat -> (K <= N)%nat -> (N <= nmax)%nat ->
  (forall n, (K <= n <= N)%nat -> f n = f' n) -> (forall n, (n < K \/ N < n)%nat -> f n = 0) ->
  Rsum (map f (range_incl nmin nmax)) = Rsum (map f' (range_incl K N)).
Proof.
  intros H1 H2 H3 E Z.
  destruct (Nat.eq_dec nmin K) as [->|Hne].
  - rewrite (range_split K N nmax) by lia. rewrite map_app, Rsum_app.
    rewrite (Rsum_map_0 f (range_incl (N+1) nmax)).
    + rewrite Rplus_0_r. apply Rsum_map_ext. intros n Hn. apply range_incl_spec in Hn. apply E. lia.
    + intros n Hn. apply range_incl_spec in Hn. apply Z. lia.
  - rewrite (range_split nmin (K - 1) nmax) by lia. replace (K - 1 + 1)%nat with K by lia.
    rewrite (range_split K N nmax) by lia. rewrite !map_app, !Rsum_app.
    rewrite (Rsum_map_0 f (range_incl nmin (K - 1))).
    + rewrite (Rsum_map_0 f (range_incl (N+1) nmax)).
      * rewrite Rplus_0_r, Rplus_0_l. apply Rsum_map_ext. intros n Hn. apply range_incl_spec in Hn. apply E. lia.
      * intros n Hn. apply range_incl_spec in Hn. apply Z. lia.
    + intros n Hn. apply range_incl_spec in Hn. apply Z. lia.
Qed.

Lemma clo_cut s a nmin nmax mmax K N g h r t p : (nmin <= K)%nat -> (K <= N)%nat -> (N <= nmax)%nat ->
  clo_r s a nmin nmax mmax (cut K N g) (cut K N h) r t p = clo_r s a K N mmax g h r t p /\
  clo_t s a nmin nmax mmax (cut K N g) (cut K N h) r t p = clo_t s a K N mmax g h r t p /\
  clo_p s a nmin nmax mmax (cut K N g) (cut K N h) r t p = clo_p s a K N mmax g h r t p.
Proof.
  intros H1 H2 H3. unfold clo_r, clo_t, clo_p. split; [|split]; apply Rsum_cut; try assumption; intros n Hn; unfold sum_r, sum_t, sum_p.
  - do 2 f_equal. apply Rsum_map_ext. intros m _. unfold ang. rewrite !cut_in by assumption. reflexivity.
  - rewrite Rsum_map_0; [ring|]. intros m _. unfold ang. rewrite !cut_out by assumption. ring.
  - f_equal. apply Rsum_map_ext. intros m _. unfold ang. rewrite !cut_in by assumption. reflexivity.
  - rewrite Rsum_map_0; [ring|]. intros m _. unfold ang. rewrite !cut_out by assumption. ring.
  - f_equal. apply Rsum_map_ext. intros m _. unfold ang'. rewrite !cut_in by assumption. reflexivity.
  - rewrite Rsum_map_0; [ring|]. intros m _. unfold ang'. rewrite !cut_out by assumption. ring.
Qed.

Lemma C28 oob a radius theta phi K N nmax mmax s g h rest rest' F F' :
  (1 <= K)%nat -> (N <= nmax)%nat -> (forall t, In t (elems theta) -> 0 <= t <= 180) ->
  synth_values oob a (cvec (gauss_list K N mmax g h ++ rest)) radius theta phi
    (Some (Z.of_nat K)) (Some (Z.of_nat N)) (Some (Z.of_nat mmax)) (Some (src_name s)) false = Ok F ->
  synth_values oob a (cvec (gauss_list 1 nmax mmax (cut K N g) (cut K N h) ++ rest')) radius theta phi
    (Some (Z.of_nat 1)) (Some (Z.of_nat nmax)) (Some (Z.of_nat mmax)) (Some (src_name s)) false = Ok F' ->
  f_sh F' = f_sh F /\
  forall x, valid (f_sh F) x -> f_r F' x = f_r F x /\ f_t F' x = f_t F x /\ f_p F' x = f_p F x.
Proof.
  intros H1 H3 Ht E E'.
  assert (S : f_sh F' = f_sh F).
  { destruct (sv_at _ _ _ _ _ _ _ _ _ _ _ _ E) as (d & D & S & _).
    destruct (sv_at _ _ _ _ _ _ _ _ _ _ _ _ E') as (d' & D' & S' & _).
    apply decode_nogrid in D. apply decode_nogrid in D'. cbn [csh cvec] in *.
    destruct D as (_ & _ & _ & D & _). destruct D' as (_ & _ & _ & D' & _). congruence. }
  split; [exact S|]. intros x V.
  destruct (sv_closed _ _ _ _ _ _ _ _ _ _ _ x g h rest E Ht V (crow_cvec _ _)) as (Hn & _ & -> & -> & ->).
  rewrite <- S in V.
  destruct (sv_closed _ _ _ _ _ _ _ _ _ _ _ x (cut K N g) (cut K N h) rest' E' Ht V (crow_cvec _ _)) as (_ & _ & -> & -> & ->).
  apply clo_cut; lia.
Qed.

(** ** C30 *)
Lemma kernel_flag oob s a nmin nmax mmax b b' c r t p : (is_pole t = true -> b = b') ->
  synth_point oob s a nmin nmax mmax b c r t p = synth_point oob s a nmin nmax mmax b' c r t p.
Proof.
  intros H. unfold synth_point. replace (b && is_pole t)%bool with (b' && is_pole t)%bool; [reflexivity|].
  destruct (is_pole t); [now rewrite H|]. now rewrite !andb_false_r.
Qed.

(** From any decoded array evaluation to the scalar one. *)
Lemma pointwise_gen oob a c radius theta phi nmin nmax mmax source grid F :
  synth_values oob a c radius theta phi nmin nmax mmax source grid = Ok F ->
  (forall t, In t (elems theta) -> 0 <= t <= 180) ->
  forall x th ph, gridded grid theta phi = Ok (th, ph) -> In (bread th x) (elems theta) ->
  exists F', synth_values oob a (cvec (crow c x)) (scalar (bread radius x)) (scalar (bread th x)) (scalar (bread ph x))
               nmin nmax mmax source false = Ok F' /\ f_sh F' = [] /\
    f_r F' [] = f_r F x /\ f_t F' [] = f_t F x /\ f_p F' [] = f_p F x.
Proof.
  intros E Ht x th ph G I. destruct (sv_at _ _ _ _ _ _ _ _ _ _ _ _ E) as (d & D & S & P). specialize (P x).
  pose proof (synth_values_decode oob a (cvec (crow c x)) (scalar (bread radius x)) (scalar (bread th x)) (scalar (bread ph x))
               nmin nmax mmax source false) as H.
  generalize dependent (synth_values oob a (cvec (crow c x)) (scalar (bread radius x)) (scalar (bread th x)) (scalar (bread ph x))
               nmin nmax mmax source false). intros SV H.
  destruct (check_poles_single _ (Ht _ I)) as (b & Eb & Fb).
  unfold decode in D, H. change (elems (scalar (bread th x))) with [bread th x] in H. rewrite Eb in H.
  destruct (check_poles (elems theta)) as [b0|] eqn:Eb0; [|discriminate]. cbn [bind] in D, H.
  destruct (orZ nmin 1 <=? 0)%Z; [discriminate|].
  change (cdim (cvec (crow c x))) with (List.length (crow c x)) in H. rewrite crow_length in H.
  destruct (infer_nmax _ _ _ _) as [n m]. destruct (n <? orZ nmin 1)%Z; [discriminate|].
  rewrite G in D. unfold gridded in H. cbn [bind fst snd] in D, H.
  change (csh (cvec (crow c x))) with (@nil nat) in H.
  change (sh (scalar (bread radius x))) with (@nil nat) in H. change (sh (scalar (bread th x))) with (@nil nat) in H.
  change (sh (scalar (bread ph x))) with (@nil nat) in H.
  destruct (broadcast [sh radius; sh th; sh ph; csh c]) as [gs|]; [|discriminate]. cbn [bind] in D.
  change (broadcast [[]; []; []; []]) with (Ok (A := list nat) []) in H. cbn [bind] in H.
  destruct (parse_source source) as [s|]; [|discriminate]. cbn [bind] in D, H. injection D as <-.
  unfold run_point in P, H. cbn [e_nmin e_nmax e_mmax e_s e_poles e_theta e_phi e_sh] in P, H.
  assert (X : forall y, run_point oob a (cvec (crow c x)) (scalar (bread radius x))
      (mkdec b s (Z.to_nat (orZ nmin 1)) (Z.to_nat n) (Z.to_nat m) (scalar (bread th x)) (scalar (bread ph x)) []) y
      = Ok (f_r F x, f_t F x, f_p F x)).
  { intros y. unfold run_point. cbn [e_nmin e_nmax e_mmax e_s e_poles e_theta e_phi e_sh].
    rewrite crow_cvec. rewrite !bread_scalar. rewrite <- P. apply kernel_flag. intros Hp.
    apply is_pole_spec in Hp.
    assert (b = true). { destruct b; [reflexivity|]. specialize (Fb eq_refl). lra. }
    assert (b0 = true). { destruct b0; [reflexivity|]. pose proof (check_poles_false _ _ Eb0 Ht eq_refl _ I). lra. }
    congruence. }
  unfold run_point in X. cbn [e_nmin e_nmax e_mmax e_s e_poles e_theta e_phi e_sh] in X.
  destruct SV as [F'|e].
  - destruct H as [H1 H2]. exists F'. split; [reflexivity|]. split; [exact H1|]. specialize (H2 []). rewrite X in H2.
    injection H2 as -> -> ->. repeat split; reflexivity.
  - specialize (H []). rewrite X in H. discriminate.
Qed.

Lemma C30_pointwise oob a c radius theta phi nmin nmax mmax source F :
  synth_values oob a c radius theta phi nmin nmax mmax source false = Ok F ->
  (forall t, In t (elems theta) -> 0 <= t <= 180) ->
  forall x, valid (f_sh F) x ->
  exists F', synth_values oob a (cvec (crow c x)) (scalar (bread radius x)) (scalar (bread theta x)) (scalar (bread phi x))
               nmin nmax mmax source false = Ok F' /\ f_sh F' = [] /\
    f_r F' [] = f_r F x /\ f_t F' [] = f_t F x /\ f_p F' [] = f_p F x.
Proof.
  intros E Ht x V. apply (pointwise_gen _ _ _ _ _ _ _ _ _ _ _ _ E Ht x theta phi); [reflexivity|].
  destruct (sv_at _ _ _ _ _ _ _ _ _ _ _ _ E) as (d & D & S & _).
  apply decode_nogrid in D. destruct D as (_ & _ & _ & D & _).
  apply (bread_in theta (f_sh F)); [|exact V]. rewrite S. apply broadcast_fits in D.
  inversion D as [|? ? _ D']; subst. inversion D'; assumption.
Qed.

Lemma broadcast_grid n m : broadcast [[]; [n; 1]; [1; m]; []]%nat = Ok [n; m].
Proof.
  rewrite broadcast_snoc_nil.
  assert (E : bshape [n; 1]%nat [1; m]%nat = Some [n; m]).
  { unfold bshape. cbn. destruct n as [|[|]], m as [|[|]]; reflexivity. }
  change (broadcast [[]; [n; 1]%nat; [1; m]%nat])
    with (match bshape [n; 1]%nat [1; m]%nat with Some u => Ok u | None => Err ValueError end).
  rewrite E. reflexivity.
Qed.

Lemma elems_vec (d : R) ts : elems (vec d ts) = ts.
Proof.
  unfold elems, vec. cbn [sh at_ indices].
  assert (X : forall k n, flat_map (fun j : nat => map (cons j) [[]]) (seq k n) = map (fun j => [j]) (seq k n)).
  { intros k n. revert k. induction n as [|n IH]; intros k; [reflexivity|]. cbn. f_equal. }
  rewrite X, map_map. apply nth_ext with (d := d) (d' := d).
  - now rewrite map_length, seq_length.
  - intros n Hn. rewrite map_length, seq_length in Hn.
    rewrite (nth_indep _ d (nth 0 ts d)) by (rewrite map_length, seq_length; exact Hn).
    rewrite (map_nth (fun k => nth k ts d)). rewrite seq_nth by exact Hn. reflexivity.
Qed.

Lemma C30_grid oob a l r ts ps nmin nmax mmax source F :
  synth_values oob a (cvec l) (scalar r) (vec 0 ts) (vec 0 ps) nmin nmax mmax source true = Ok F ->
  (forall t, In t ts -> 0 <= t <= 180) ->
  f_sh F = [List.length ts; List.length ps] /\
  forall i j, (i < List.length ts)%nat -> (j < List.length ps)%nat ->
  exists F', synth_values oob a (cvec l) (scalar r) (scalar (nth i ts 0)) (scalar (nth j ps 0))
               nmin nmax mmax source false = Ok F' /\ f_sh F' = [] /\
    f_r F' [] = f_r F [i; j] /\ f_t F' [] = f_t F [i; j] /\ f_p F' [] = f_p F [i; j].
Proof.
  intros E Ht.
  split.
  - destruct (sv_at _ _ _ _ _ _ _ _ _ _ _ _ E) as (d & D & S & _). rewrite S. clear -D. revert D.
    unfold decode. destruct (check_poles _) as [b|]; [|discriminate]. cbn [bind].
    destruct (orZ nmin 1 <=? 0)%Z; [discriminate|].
    destruct (infer_nmax _ _ _ _) as [n m]. destruct (n <? orZ nmin 1)%Z; [discriminate|].
    unfold gridded, expand_before_last, expand_last. cbn [vec sh rev app bind fst snd scalar cvec csh].
    rewrite broadcast_grid. cbn [bind]. destruct (parse_source source); [|discriminate].
    cbn [bind]. intros H. injection H as <-. reflexivity.
  - intros i j Hi Hj.
    destruct (pointwise_gen _ _ _ _ _ _ _ _ _ _ _ _ E) with (x := [i; j])
      (th := expand_last (vec 0 ts))
      (ph := mknd [1; List.length ps]%nat (fun i => match rev i with k :: _ :: j => at_ (vec 0 ps) (rev j ++ [k]) | _ => at_ (vec 0 ps) i end))
      as (F' & X & Y).
    + rewrite elems_vec. exact Ht.
    + reflexivity.
    + assert (B : bread (expand_last (vec 0 ts)) [i; j] = nth i ts 0).
      { unfold bread, expand_last, bidx. cbn. destruct (Nat.eqb_spec (List.length ts) 1); [|reflexivity]. f_equal. lia. }
      rewrite B, elems_vec. apply nth_In, Hi.
    + exists F'. split; [|exact Y]. rewrite crow_cvec in X.
      assert (B : bread (expand_last (vec 0 ts)) [i; j] = nth i ts 0).
      { unfold bread, expand_last, bidx. cbn. destruct (Nat.eqb_spec (List.length ts) 1); [|reflexivity]. f_equal. lia. }
      assert (B' : bread (mknd [1; List.length ps]%nat (fun i => match rev i with k :: _ :: j => at_ (vec 0 ps) (rev j ++ [k]) | _ => at_ (vec 0 ps) i end)) [i; j] = nth j ps 0).
      { unfold bread, bidx. cbn. destruct (Nat.eqb_spec (List.length ps) 1); [|reflexivity]. f_equal. lia. }
      rewrite B, B' in X. exact X.
Qed.

(** ** C31 *)
Lemma for_rangeM_ext {A} a b (f g : A -> nat -> result A) x : (forall y i, f y i = g y i) -> for_rangeM a b f x = for_rangeM a b g x.
Proof.
  intros H. unfold for_rangeM. generalize (Ok x). induction (seq a (b - a)) as [|k l IH]; intros r; [reflexivity|].
  cbn [fold_left]. destruct r; cbn [bind]; [rewrite H|]; apply IH.
Qed.

Lemma trig_period (m : nat) (k : Z) p :
  cos (INR m * radians (p + 360 * IZR k)) = cos (INR m * radians p) /\
  sin (INR m * radians (p + 360 * IZR k)) = sin (INR m * radians p).
Proof.
  replace (INR m * radians (p + 360 * IZR k)) with (INR m * radians p + 2 * IZR (Z.of_nat m * k) * PI)
    by (unfold radians; rewrite mult_IZR, <- INR_IZR_INZ; field).
  set (z := (Z.of_nat m * k)%Z). clearbody z. set (y := INR m * radians p). clearbody y.
  destruct (Z.le_gt_cases 0 z) as [H|H].
  - replace (IZR z) with (INR (Z.to_nat z)) by (rewrite INR_IZR_INZ, Z2Nat.id by lia; reflexivity).
    split; [apply cos_period|apply sin_period].
  - replace y with ((y + 2 * IZR z * PI) + 2 * INR (Z.to_nat (- z)) * PI) at 2 4.
    + split; symmetry; [apply cos_period|apply sin_period].
    + rewrite INR_IZR_INZ, Z2Nat.id, opp_IZR by lia. ring.
Qed.

Lemma kernel_period oob s a nmin nmax mmax b c r t p k :
  synth_point oob s a nmin nmax mmax b c r t (p + 360 * IZR k) = synth_point oob s a nmin nmax mmax b c r t p.
Proof.
  unfold synth_point. destruct (legendre_poly oob nmax t) as [P|]; [|reflexivity]. cbn [bind]. f_equal.
  apply for_rangeM_ext. intros y i. unfold synth_n. destruct (getc c (a_num y)); [|reflexivity]. cbn [bind]. f_equal.
  apply for_rangeM_ext. intros z j. unfold synth_m. destruct (trig_period j k p) as [-> ->]. reflexivity.
Qed.

Definition shift_phi (phi : nd R) (k : list nat -> Z) : nd R := mknd (sh phi) (fun x => at_ phi x + 360 * IZR (k x)).

Lemma C31_period oob a c radius theta phi k nmin nmax mmax source F :
  synth_values oob a c radius theta phi nmin nmax mmax source false = Ok F ->
  exists F', synth_values oob a c radius theta (shift_phi phi k) nmin nmax mmax source false = Ok F' /\
    f_sh F' = f_sh F /\
    forall x, f_r F' x = f_r F x /\ f_t F' x = f_t F x /\ f_p F' x = f_p F x.
Proof.
  intros E. destruct (sv_at _ _ _ _ _ _ _ _ _ _ _ _ E) as (d & D & S & P).
  pose proof (synth_values_decode oob a c radius theta (shift_phi phi k) nmin nmax mmax source false) as H.
  unfold decode in D, H. destruct (check_poles (elems theta)) as [b|]; [|discriminate]. cbn [bind] in D, H.
  destruct (orZ nmin 1 <=? 0)%Z; [discriminate|].
  destruct (infer_nmax _ _ _ _) as [n m]. destruct (n <? orZ nmin 1)%Z; [discriminate|].
  unfold gridded in D, H. cbn [bind fst snd] in D, H. change (sh (shift_phi phi k)) with (sh phi) in H.
  destruct (broadcast _) as [gs|]; [|discriminate]. cbn [bind] in D, H.
  destruct (parse_source source) as [s|]; [|discriminate]. cbn [bind] in D, H. injection D as <-.
  assert (X : forall x, run_point oob a c radius (mkdec b s (Z.to_nat (orZ nmin 1)) (Z.to_nat n) (Z.to_nat m) theta (shift_phi phi k) gs) x
      = Ok (f_r F x, f_t F x, f_p F x)).
  { intros x. rewrite <- P. unfold run_point. cbn [e_nmin e_nmax e_mmax e_s e_poles e_theta e_phi e_sh].
    change (bread (shift_phi phi k) x) with (bread phi x + 360 * IZR (k (bidx (sh phi) x))). apply kernel_period. }
  destruct (synth_values oob a c radius theta (shift_phi phi k) _ _ _ _ _) as [F'|e].
  - destruct H as [H1 H2]. exists F'. split; [reflexivity|]. split; [cbn in *; congruence|].
    intros x. specialize (H2 x). rewrite X in H2. injection H2 as -> -> ->. repeat split; reflexivity.
  - specialize (H []). rewrite X in H. discriminate.
Qed.

Lemma C31_zonal oob a c radius theta phi phi' nmin nmax mmax s F F' :
  synth_values oob a c radius theta phi (Some (Z.of_nat nmin)) (Some (Z.of_nat nmax)) (Some (Z.of_nat mmax)) (Some (src_name s)) false = Ok F ->
  synth_values oob a c radius theta phi' (Some (Z.of_nat nmin)) (Some (Z.of_nat nmax)) (Some (Z.of_nat mmax)) (Some (src_name s)) false = Ok F' ->
  (forall t, In t (elems theta) -> 0 <= t <= 180) ->
  forall x g h rest, valid (f_sh F) x -> valid (f_sh F') x ->
  crow c x = gauss_list nmin nmax mmax g h ++ rest ->
  (forall n m, (1 <= m)%nat -> g n m = 0 /\ h n m = 0) ->
  f_p F x = 0 /\ f_r F' x = f_r F x /\ f_t F' x = f_t F x.
Proof.
  intros E E' Ht x g h rest V V' R Z.
  destruct (sv_closed _ _ _ _ _ _ _ _ _ _ _ x g h rest E Ht V R) as (_ & _ & -> & -> & ->).
  destruct (sv_closed _ _ _ _ _ _ _ _ _ _ _ x g h rest E' Ht V' R) as (_ & _ & -> & -> & _).
  assert (A : forall p p' n m, ang p (g n) (h n) m = ang p' (g n) (h n) m).
  { intros p p' n m. unfold ang. destruct m as [|m].
    - cbn [INR]. rewrite !Rmult_0_l, sin_0. reflexivity.
    - destruct (Z n (S m) ltac:(lia)) as [-> ->]. ring. }
  split; [|split].
  - unfold clo_p. apply Rsum_map_0. intros n _. unfold sum_p. rewrite Rsum_map_0; [ring|].
    intros m _. destruct m as [|m]; [cbn [INR]; ring|]. unfold ang'. destruct (Z n (S m) ltac:(lia)) as [-> ->]. ring.
  - unfold clo_r. apply Rsum_map_ext. intros n _. unfold sum_r. do 2 f_equal. apply Rsum_map_ext. intros m _.
    rewrite (A (rad (bread phi' x)) (rad (bread phi x))). reflexivity.
  - unfold clo_t. apply Rsum_map_ext. intros n _. unfold sum_t. f_equal. apply Rsum_map_ext. intros m _.
    rewrite (A (rad (bread phi' x)) (rad (bread phi x))). reflexivity.
Qed.
