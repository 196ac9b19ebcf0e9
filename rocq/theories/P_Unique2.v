(** The field on one sphere determines the coefficients: statement for
    synth_values; change of the reference radius. *)
From Coq Require Import Reals List Arith Lia Lra ZArith Bool String.
From Verif Require Import M_Prelude M_ND Spec_Legendre Spec_Field Spec_Analysis Spec_Coord M_Coord M_Legendre M_Synth M_SynthArr M_Rotate M_Analysis
  P_Legendre2 P_Synth P_SynthClosed P_SynthProps P_SynthProps2 P_SHC2 P_Analysis P_RotOrtho P_RotField P_RotField2 P_Unique.
Import ListNotations.
Open Scope R_scope.

Definition gl (v : list R) (n m : nat) : R := nth (g_position n m) v 0.
Definition hl (v : list R) (n m : nat) : R := nth (h_position n m) v 0.

Lemma list_by_positions N v v' : List.length v = (N * (N + 2))%nat -> List.length v' = (N * (N + 2))%nat ->
  (forall n m, (1 <= n <= N)%nat -> (m <= n)%nat -> gl v n m = gl v' n m) -> (forall n m, (1 <= n <= N)%nat -> (1 <= m <= n)%nat -> hl v n m = hl v' n m) -> v = v'.
Proof.
  intros Lv Lv' A B. apply nth_ext with (d := 0) (d' := 0); [congruence|]. intros i Hi. rewrite Lv in Hi.
  destruct (position_cases N i Hi) as (n & m & Hn & [[Hm ->]|[Hm ->]]); [apply A|apply B]; assumption.
Qed.

(** a call at one point *)
Lemma at_point oob a v N s r t p F : (1 <= N)%nat -> List.length v = (N * (N + 2))%nat -> 0 <= t <= 180 ->
  synth_values oob a (cvec v) (scalar r) (scalar t) (scalar p) (Some 1%Z) (Some (Z.of_nat N)) (Some (Z.of_nat N)) (Some (src_name s)) false = Ok F ->
  f_r F [] = clo_r s a 1 N N (gl v) (hl v) r (rad t) (rad p) /\ f_t F [] = clo_t s a 1 N N (gl v) (hl v) r (rad t) (rad p) /\
  f_p F [] = clo_p s a 1 N N (gl v) (hl v) r (rad t) (rad p).
Proof.
  intros HN Lv Ht E. destruct (gauss_positions N v) as (rest & Ev); [rewrite Lv; reflexivity|].
  destruct (sv_scalar oob a v r t p 1 N N s _ _ rest ltac:(lia) Ht Ev) as (F' & E' & _ & R).
  change 1%Z with (Z.of_nat 1) in E. rewrite E in E'. injection E' as <-. exact R.
Qed.
Lemma call_exists oob a v N s r t p : (1 <= N)%nat -> List.length v = (N * (N + 2))%nat -> 0 <= t <= 180 ->
  exists F, synth_values oob a (cvec v) (scalar r) (scalar t) (scalar p) (Some 1%Z) (Some (Z.of_nat N)) (Some (Z.of_nat N)) (Some (src_name s)) false = Ok F.
Proof. intros HN Lv Ht. destruct (one_point oob a v r t p N s HN) as (F & E & _); [lia|exact Ht|exists F; exact E]. Qed.

Theorem separation oob a r L K v w v' w' : 0 < a -> 0 < r -> (1 <= L)%nat -> (1 <= K)%nat ->
  List.length v = (L * (L + 2))%nat -> List.length v' = (L * (L + 2))%nat -> List.length w = (K * (K + 2))%nat -> List.length w' = (K * (K + 2))%nat ->
  let call c N s theta phi := synth_values oob a (cvec c) (scalar r) (scalar theta) (scalar phi) (Some 1%Z) (Some (Z.of_nat N)) (Some (Z.of_nat N)) (Some (src_name s)) false in
  (forall theta phi F G F' G', 0 <= theta <= 180 -> 
    call v L Internal theta phi = Ok F -> call w K External theta phi = Ok G -> call v' L Internal theta phi = Ok F' -> call w' K External theta phi = Ok G' ->
    f_r F [] + f_r G [] = f_r F' [] + f_r G' [] /\ f_t F [] + f_t G [] = f_t F' [] + f_t G' []) ->
  v = v' /\ w = w'.
Proof.
  intros Ha Hr HL HK Lv Lv' Lw Lw' call H.
  assert (S : radial_same a r L K (gl v) (hl v) (gl v') (hl v') (gl w) (hl w) (gl w') (hl w') /\ south_same a r L K (gl v) (hl v) (gl v') (hl v') (gl w) (hl w) (gl w') (hl w')).
  { assert (X : forall t p, 0 <= t <= 180 ->
      clo_r Internal a 1 L L (gl v) (hl v) r (rad t) (rad p) + clo_r External a 1 K K (gl w) (hl w) r (rad t) (rad p) =
      clo_r Internal a 1 L L (gl v') (hl v') r (rad t) (rad p) + clo_r External a 1 K K (gl w') (hl w') r (rad t) (rad p) /\
      clo_t Internal a 1 L L (gl v) (hl v) r (rad t) (rad p) + clo_t External a 1 K K (gl w) (hl w) r (rad t) (rad p) =
      clo_t Internal a 1 L L (gl v') (hl v') r (rad t) (rad p) + clo_t External a 1 K K (gl w') (hl w') r (rad t) (rad p)).
    { intros t p B.
      destruct (call_exists oob a v L Internal r t p HL Lv B) as (F & EF). destruct (call_exists oob a w K External r t p HK Lw B) as (G & EG).
      destruct (call_exists oob a v' L Internal r t p HL Lv' B) as (F' & EF'). destruct (call_exists oob a w' K External r t p HK Lw' B) as (G' & EG').
      destruct (H t p F G F' G' B EF EG EF' EG') as [H1 H2].
      destruct (at_point _ _ _ _ _ _ _ _ _ HL Lv B EF) as (A1 & A2 & _). destruct (at_point _ _ _ _ _ _ _ _ _ HK Lw B EG) as (B1 & B2 & _).
      destruct (at_point _ _ _ _ _ _ _ _ _ HL Lv' B EF') as (C1 & C2 & _). destruct (at_point _ _ _ _ _ _ _ _ _ HK Lw' B EG') as (D1 & D2 & _).
      rewrite A1, B1, C1, D1 in H1. rewrite A2, B2, C2, D2 in H2. split; assumption. }
    split; intros t p B; apply (X t p B). }
  destruct (separate a r L K _ _ _ _ _ _ _ _ Ha Hr HL HK (proj1 S) (proj2 S)) as (A & B & C & D).
  split; [apply (list_by_positions L)|apply (list_by_positions K)]; assumption.
Qed.

(** one source: one component suffices *)
Lemma clo_r_zero s a N r t p : clo_r s a 1 N N (gl (repeat 0 (N * (N + 2)))) (hl (repeat 0 (N * (N + 2)))) r t p = 0.
Proof.
  apply Rsum_map_0. intros n _. unfold sum_r. rewrite Rsum_map_0; [ring|]. intros m _. unfold ang, gl, hl. rewrite !nth_repeat. ring.
Qed.

Theorem one_component oob a r N s v v' : 0 < a -> 0 < r -> (1 <= N)%nat ->
  List.length v = (N * (N + 2))%nat -> List.length v' = (N * (N + 2))%nat ->
  let call c theta phi := synth_values oob a (cvec c) (scalar r) (scalar theta) (scalar phi) (Some 1%Z) (Some (Z.of_nat N)) (Some (Z.of_nat N)) (Some (src_name s)) false in
  (forall theta phi F F', 0 <= theta <= 180 -> call v theta phi = Ok F -> call v' theta phi = Ok F' -> f_r F [] = f_r F' []) \/
  (forall theta phi F F', 0 <= theta <= 180 -> call v theta phi = Ok F -> call v' theta phi = Ok F' -> f_t F [] = f_t F' []) ->
  v = v'.
Proof.
  intros Ha Hr HN Lv Lv' call H.
  assert (X : forall t p, 0 <= t <= 180 -> exists F F', call v t p = Ok F /\ call v' t p = Ok F' /\
     f_r F [] = clo_r s a 1 N N (gl v) (hl v) r (rad t) (rad p) /\ f_t F [] = clo_t s a 1 N N (gl v) (hl v) r (rad t) (rad p) /\
     f_r F' [] = clo_r s a 1 N N (gl v') (hl v') r (rad t) (rad p) /\ f_t F' [] = clo_t s a 1 N N (gl v') (hl v') r (rad t) (rad p)).
  { intros t p B. destruct (call_exists oob a v N s r t p HN Lv B) as (F & EF). destruct (call_exists oob a v' N s r t p HN Lv' B) as (F' & EF').
    destruct (at_point _ _ _ _ _ _ _ _ _ HN Lv B EF) as (A1 & A2 & _). destruct (at_point _ _ _ _ _ _ _ _ _ HN Lv' B EF') as (B1 & B2 & _).
    exists F, F'. repeat split; assumption. }
  pose (zl := fun _ _ : nat => 0).
  assert (Z : forall s' t p, clo_r s' a 1 N N zl zl r t p = 0 /\ clo_t s' a 1 N N zl zl r t p = 0).
  { intros s' t p. split; apply Rsum_map_0; intros n _; [unfold sum_r|unfold sum_t]; rewrite Rsum_map_0; try ring; intros m _; unfold ang, zl; ring. }
  assert (rr_nz0 : forall n, rr s (r / a) n <> 0) by (intros n; apply rr_nz; assumption).
  destruct s.
  - destruct H as [H|H].
    + destruct (radial_mix a r N N (gl v) (hl v) (gl v') (hl v') zl zl zl zl) as [A B].
      { intros t p Bt. destruct (Z External (rad t) (rad p)) as [-> _]. destruct (X t p Bt) as (F & F' & E & E' & <- & _ & <- & _). rewrite (H t p F F' Bt E E'). reflexivity. }
      rewrite Nat.max_id in A, B. 
      assert (U : forall u u' n m, (1 <= n <= N)%nat -> up_to N (fun n m => rr Internal (r / a) n * kk Internal n * u n m) n m + up_to N (fun n m => rr External (r / a) n * kk External n * zl n m) n m =
         up_to N (fun n m => rr Internal (r / a) n * kk Internal n * u' n m) n m + up_to N (fun n m => rr External (r / a) n * kk External n * zl n m) n m -> u n m = u' n m).
      { intros u u' n m Hn E. unfold up_to in E. destruct (Nat.leb_spec n N); [|lia].
        apply (Rmult_eq_reg_l (rr Internal (r / a) n * kk Internal n)); [lra|]. apply Rmult_integral_contrapositive_currified; [apply rr_nz0|]. apply not_0_INR. lia. }
      apply (list_by_positions N); try assumption; intros n m Hn Hm; [apply (U _ _ n m Hn), A|apply (U _ _ n m Hn), B]; assumption.
    + destruct (south_mix a r N N (gl v) (hl v) (gl v') (hl v') zl zl zl zl Ha Hr HN HN) as [A B].
      { intros t p Bt. destruct (Z External (rad t) (rad p)) as [_ ->]. destruct (X t p Bt) as (F & F' & E & E' & _ & <- & _ & <-). rewrite (H t p F F' Bt E E'). reflexivity. }
      rewrite Nat.max_id in A, B.
      assert (U : forall u u' n m, (1 <= n <= N)%nat -> up_to N (fun n m => r * rr Internal (r / a) n * u n m) n m + up_to N (fun n m => r * rr External (r / a) n * zl n m) n m =
         up_to N (fun n m => r * rr Internal (r / a) n * u' n m) n m + up_to N (fun n m => r * rr External (r / a) n * zl n m) n m -> u n m = u' n m).
      { intros u u' n m Hn E. unfold up_to in E. destruct (Nat.leb_spec n N); [|lia].
        apply (Rmult_eq_reg_l (r * rr Internal (r / a) n)); [lra|]. apply Rmult_integral_contrapositive_currified; [lra|apply rr_nz0]. }
      apply (list_by_positions N); try assumption; intros n m Hn Hm; [apply (U _ _ n m Hn), A|apply (U _ _ n m Hn), B]; assumption.
  - destruct H as [H|H].
    + destruct (radial_mix a r N N zl zl zl zl (gl v) (hl v) (gl v') (hl v')) as [A B].
      { intros t p Bt. destruct (Z Internal (rad t) (rad p)) as [-> _]. destruct (X t p Bt) as (F & F' & E & E' & <- & _ & <- & _). rewrite (H t p F F' Bt E E'). reflexivity. }
      rewrite Nat.max_id in A, B.
      assert (U : forall u u' n m, (1 <= n <= N)%nat -> up_to N (fun n m => rr Internal (r / a) n * kk Internal n * zl n m) n m + up_to N (fun n m => rr External (r / a) n * kk External n * u n m) n m =
         up_to N (fun n m => rr Internal (r / a) n * kk Internal n * zl n m) n m + up_to N (fun n m => rr External (r / a) n * kk External n * u' n m) n m -> u n m = u' n m).
      { intros u u' n m Hn E. unfold up_to in E. destruct (Nat.leb_spec n N); [|lia].
        apply (Rmult_eq_reg_l (rr External (r / a) n * kk External n)); [lra|]. apply Rmult_integral_contrapositive_currified; [apply rr_nz0|].
        cbn [kk]. apply Ropp_neq_0_compat, not_0_INR. lia. }
      apply (list_by_positions N); try assumption; intros n m Hn Hm; [apply (U _ _ n m Hn), A|apply (U _ _ n m Hn), B]; assumption.
    + destruct (south_mix a r N N zl zl zl zl (gl v) (hl v) (gl v') (hl v') Ha Hr HN HN) as [A B].
      { intros t p Bt. destruct (Z Internal (rad t) (rad p)) as [_ ->]. destruct (X t p Bt) as (F & F' & E & E' & _ & <- & _ & <-). rewrite (H t p F F' Bt E E'). reflexivity. }
      rewrite Nat.max_id in A, B.
      assert (U : forall u u' n m, (1 <= n <= N)%nat -> up_to N (fun n m => r * rr Internal (r / a) n * zl n m) n m + up_to N (fun n m => r * rr External (r / a) n * u n m) n m =
         up_to N (fun n m => r * rr Internal (r / a) n * zl n m) n m + up_to N (fun n m => r * rr External (r / a) n * u' n m) n m -> u n m = u' n m).
      { intros u u' n m Hn E. unfold up_to in E. destruct (Nat.leb_spec n N); [|lia].
        apply (Rmult_eq_reg_l (r * rr External (r / a) n)); [lra|]. apply Rmult_integral_contrapositive_currified; [lra|apply rr_nz0]. }
      apply (list_by_positions N); try assumption; intros n m Hn Hm; [apply (U _ _ n m Hn), A|apply (U _ _ n m Hn), B]; assumption.
Qed.

(** ** Other reference radius *)
(** for which coefficients the fields agree *)
Definition refer (s : src) (a a' : R) (n : nat) : R := match s with Internal => (a / a') ^ (n + 2) | External => (a' / a) ^ (n - 1) end.

Lemma refer_rr s a a' r n : 0 < a -> 0 < a' -> 0 < r -> (1 <= n)%nat -> rr s (r / a') n * refer s a a' n = rr s (r / a) n.
Proof.
  intros Ha Ha' Hr Hn. destruct s; cbn [rr refer].
  - unfold Rdiv. rewrite !Rpow_mult_distr, !pow_inv. field. repeat split; apply pow_nonzero; lra.
  - unfold Rdiv. rewrite !Rpow_mult_distr, !pow_inv. field. repeat split; apply pow_nonzero; lra.
Qed.

Lemma clo_referred s a a' N g h g' h' r t p : 0 < a -> 0 < a' -> 0 < r ->
  (forall n m, (1 <= n <= N)%nat -> (m <= n)%nat -> g' n m = refer s a a' n * g n m) ->
  (forall n m, (1 <= n <= N)%nat -> (1 <= m <= n)%nat -> h' n m = refer s a a' n * h n m) ->
  clo_r s a' 1 N N g' h' r t p = clo_r s a 1 N N g h r t p /\ clo_t s a' 1 N N g' h' r t p = clo_t s a 1 N N g h r t p /\ clo_p s a' 1 N N g' h' r t p = clo_p s a 1 N N g h r t p.
Proof.
  intros Ha Ha' Hr Gg Hh.
  assert (A : forall n m, (1 <= n <= N)%nat -> (m <= n)%nat -> ang p (g' n) (h' n) m = refer s a a' n * ang p (g n) (h n) m /\ INR m * ang' p (g' n) (h' n) m = refer s a a' n * (INR m * ang' p (g n) (h n) m)).
  { intros n m Hn Hm. unfold ang, ang'. rewrite Gg by assumption. destruct (Nat.eq_dec m 0) as [->|Nz].
    - change (INR 0) with 0. rewrite !Rmult_0_l, sin_0. split; ring.
    - rewrite Hh by lia. split; ring. }
  split; [|split]; apply Rsum_map_ext; intros n Hn; apply range_incl_spec in Hn.
  - unfold sum_r. rewrite <- (refer_rr s a a' r n) by (assumption || lia). 
    rewrite (Rsum_map_ext _ (fun m => refer s a a' n * (ang p (g n) (h n) m * schmidt n m t))); [rewrite Rsum_map_scal; ring|].
    intros m Hm. apply range_incl_spec in Hm. destruct (A n m ltac:(lia) ltac:(lia)) as [-> _]. ring.
  - unfold sum_t. rewrite <- (refer_rr s a a' r n) by (assumption || lia). 
    rewrite (Rsum_map_ext _ (fun m => refer s a a' n * (- ang p (g n) (h n) m * rawd n m t))); [rewrite Rsum_map_scal; ring|].
    intros m Hm. apply range_incl_spec in Hm. destruct (A n m ltac:(lia) ltac:(lia)) as [-> _]. ring.
  - unfold sum_p. rewrite <- (refer_rr s a a' r n) by (assumption || lia). 
    rewrite (Rsum_map_ext _ (fun m => refer s a a' n * (ang' p (g n) (h n) m * (INR m * reg n m t)))); [rewrite Rsum_map_scal; ring|].
    intros m Hm. apply range_incl_spec in Hm. destruct (A n m ltac:(lia) ltac:(lia)) as [_ E].
    transitivity (INR m * ang' p (g' n) (h' n) m * reg n m t); [ring|]. rewrite E. ring.
Qed.

Theorem referred_field oob s a a' N v w radius theta phi F F' x : 0 < a -> 0 < a' -> (1 <= N)%nat ->
  List.length v = (N * (N + 2))%nat -> List.length w = (N * (N + 2))%nat ->
  (forall n m, (1 <= n <= N)%nat -> (m <= n)%nat -> nth (g_position n m) w 0 = refer s a a' n * nth (g_position n m) v 0) ->
  (forall n m, (1 <= n <= N)%nat -> (1 <= m <= n)%nat -> nth (h_position n m) w 0 = refer s a a' n * nth (h_position n m) v 0) ->
  synth_values oob a (cvec v) radius theta phi (Some 1%Z) (Some (Z.of_nat N)) (Some (Z.of_nat N)) (Some (src_name s)) false = Ok F ->
  synth_values oob a' (cvec w) radius theta phi (Some 1%Z) (Some (Z.of_nat N)) (Some (Z.of_nat N)) (Some (src_name s)) false = Ok F' ->
  (forall t, In t (elems theta) -> 0 <= t <= 180) -> valid (f_sh F) x -> 0 < bread radius x ->
  f_sh F' = f_sh F /\ f_r F' x = f_r F x /\ f_t F' x = f_t F x /\ f_p F' x = f_p F x.
Proof.
  intros Ha Ha' HN Lv Lw Gw Hw E E' Ht V Hr. change 1%Z with (Z.of_nat 1) in E, E'.
  assert (Sh : f_sh F' = f_sh F).
  { destruct (sv_at _ _ _ _ _ _ _ _ _ _ _ _ E) as (d & D & S & _). destruct (sv_at _ _ _ _ _ _ _ _ _ _ _ _ E') as (d' & D' & S' & _).
    destruct (decode_explicit _ _ _ _ _ _ _ _ _ D) as (_ & _ & _ & B & _). destruct (decode_explicit _ _ _ _ _ _ _ _ _ D') as (_ & _ & _ & B' & _).
    rewrite S, S'. cbn [cvec csh] in B, B'. congruence. }
  destruct (gauss_positions N v) as (rest & Ev); [rewrite Lv; reflexivity|]. destruct (gauss_positions N w) as (rest' & Ew); [rewrite Lw; reflexivity|].
  destruct (sv_closed _ _ _ _ _ _ _ _ _ _ _ x (gl v) (hl v) rest E Ht V) as (_ & _ & R1 & R2 & R3); [rewrite crow_cvec; exact Ev|].
  rewrite <- Sh in V.
  destruct (sv_closed _ _ _ _ _ _ _ _ _ _ _ x (gl w) (hl w) rest' E' Ht V) as (_ & _ & R1' & R2' & R3'); [rewrite crow_cvec; exact Ew|].
  split; [exact Sh|]. rewrite R1, R2, R3, R1', R2', R3'. apply clo_referred; assumption.
Qed.

(** only the ratio of the radii counts *)
Theorem units oob s a k v N radius theta phi F radius' F' x : k <> 0 -> (1 <= N)%nat -> List.length v = (N * (N + 2))%nat ->
  synth_values oob a (cvec v) radius theta phi (Some 1%Z) (Some (Z.of_nat N)) (Some (Z.of_nat N)) (Some (src_name s)) false = Ok F ->
  synth_values oob (k * a) (cvec v) radius' theta phi (Some 1%Z) (Some (Z.of_nat N)) (Some (Z.of_nat N)) (Some (src_name s)) false = Ok F' ->
  (forall t, In t (elems theta) -> 0 <= t <= 180) -> valid (f_sh F) x -> valid (f_sh F') x -> a <> 0 -> bread radius' x = k * bread radius x ->
  f_r F' x = f_r F x /\ f_t F' x = f_t F x /\ f_p F' x = f_p F x.
Proof.
  intros Hk HN Lv E E' Ht V V' Ha Er. change 1%Z with (Z.of_nat 1) in E, E'.
  destruct (gauss_positions N v) as (rest & Ev); [rewrite Lv; reflexivity|].
  destruct (sv_closed _ _ _ _ _ _ _ _ _ _ _ x (gl v) (hl v) rest E Ht V) as (_ & _ & R1 & R2 & R3); [rewrite crow_cvec; exact Ev|].
  destruct (sv_closed _ _ _ _ _ _ _ _ _ _ _ x (gl v) (hl v) rest E' Ht V') as (_ & _ & R1' & R2' & R3'); [rewrite crow_cvec; exact Ev|].
  rewrite R1, R2, R3, R1', R2', R3', Er. unfold clo_r, clo_t, clo_p. replace (k * bread radius x / (k * a)) with (bread radius x / a) by (field; split; assumption).
  repeat split; reflexivity.
Qed.
