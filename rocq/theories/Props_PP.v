(** Theorems about piecewise polynomial models (C39-C45).

    A model has strictly increasing breaks x, order K, D coefficients and
    polynomial coefficients c (see Spec_PP).  [None] is NaN. *)
From Coq Require Import Reals List Arith ZArith String Bool Lia Lra.
From Coquelicot Require Import Coquelicot.
From Verif Require Import M_Prelude M_ND Spec_PP M_PP P_PP P_PP2.
Import ListNotations.
Open Scope R_scope.

Local Notation pp_model x K D c := (base_init (Some x) None (Some (mkc3 K (List.length x - 1) D c))).

(** ** C39 *)
Theorem C39_inside_times_follow_their_piece : forall x K D c time dim e r idx i d,
  good_breaks x -> (1 <= K)%nat -> (d < D)%nat -> valid (sh time) idx ->
  synth_coeffs (pp_model x K D c) time dim None e = Ok r ->
  in_interval x i (at_ time idx) -> s_at r idx d = Some (piece x K c i d (at_ time idx)).
Proof. exact C39. Qed.

(** Every time of the model period lies in exactly one interval. *)
Theorem C39_intervals_partition_the_period : forall x t, good_breaks x ->
  first_break x <= t <= last_break x ->
  exists i, in_interval x i t /\ forall j, in_interval x j t -> j = i.
Proof.
  intros x t G H. destruct (in_interval_ex x t G H) as [i Hi]. exists i. split; [exact Hi|].
  intros j Hj. exact (C39_unique x t j i G Hj Hi).
Qed.

Theorem C39_documented_calls_succeed : forall x K D c time dim deriv e,
  good_breaks x -> (1 <= K)%nat -> (1 <= D)%nat -> elems time <> [] -> (forall s, e = XStr s -> In s documented) ->
  exists r, synth_coeffs (pp_model x K D c) time dim deriv e = Ok r /\ s_sh r = sh time /\
    s_dim r = match dim with None => D | Some n => Nat.min n D end.
Proof. exact C39_ok. Qed.

(** ** C40 *)
(** Time in years is days / 365.25. *)
Theorem C40_derivative_per_year : forall x K D c time dim deriv e r idx i d,
  good_breaks x -> (1 <= K)%nat -> (d < D)%nat -> valid (sh time) idx ->
  synth_coeffs (pp_model x K D c) time dim (Some deriv) e = Ok r ->
  in_interval x i (at_ time idx) ->
  at_ time idx <> last_break x \/ (forall t, In t (elems time) -> ~ outside x t) ->
  exists v, s_at r idx d = Some v /\
    is_derive_n (fun year => piece x K c i d (365.25 * year)) deriv (at_ time idx / 365.25) v.
Proof. exact C40. Qed.

(** ** C41 *)
Theorem C41_off_is_nan_exactly_outside : forall x K D c time dim deriv e r idx d,
  good_breaks x -> (1 <= K)%nat -> (d < D)%nat -> valid (sh time) idx ->
  e = XStr "off" \/ e = XBool false \/ (exists z, (z <= 0)%Z /\ e = XInt z) ->
  synth_coeffs (pp_model x K D c) time dim deriv e = Ok r ->
  (s_at r idx d = None <-> outside x (at_ time idx)).
Proof. exact off_value. Qed.

Theorem C41_constant_is_the_end_value : forall x K D c time dim deriv e r idx d right,
  good_breaks x -> (1 <= K)%nat -> (d < D)%nat -> valid (sh time) idx ->
  e = XStr "constant" \/ e = XInt 1 ->
  synth_coeffs (pp_model x K D c) time dim deriv e = Ok r ->
  beyond x right (at_ time idx) ->
  s_at r idx d = Some (match deriv with
                       | None | Some O => piece x K c (end_piece x right) d (end_of x right)
                       | Some (S _) => 0
                       end).
Proof. exact C41_constant. Qed.

Theorem C41_linear_is_the_tangent : forall x K D c time dim deriv e r idx d right,
  good_breaks x -> (1 <= K)%nat -> (d < D)%nat -> valid (sh time) idx ->
  e = XNone \/ e = XBool true \/ e = XStr "linear" \/ e = XInt 2 ->
  synth_coeffs (pp_model x K D c) time dim deriv e = Ok r ->
  beyond x right (at_ time idx) ->
  exists slope v,
    is_derive (piece x K c (end_piece x right) d) (end_of x right) slope /\
    s_at r idx d = Some v /\
    is_derive_n (fun year => tangent (piece x K c (end_piece x right) d) (end_of x right) slope (365.25 * year))
      (match deriv with None => 0%nat | Some n => n end) (at_ time idx / 365.25) v.
Proof. exact C41_linear. Qed.

(** ** C42: false for order three and more *)
(** Breaks [0, 1], order 3, polynomial s^2: 'spline' gives 5 instead of 4 at t = 2. *)
Theorem C42_spline_extrapolation_refuted : exists x K D c time r,
  good_breaks x /\ (1 <= K)%nat /\ (1 <= D)%nat /\
  synth_coeffs (pp_model x K D c) time None None (XStr "spline") = Ok r /\
  valid (sh time) [0%nat] /\ beyond x true (at_ time [0%nat]) /\
  s_at r [0%nat] 0 <> Some (piece x K c (List.length x - 2) 0 (at_ time [0%nat])).
Proof. exact C42_false. Qed.

(** What is computed instead: the Taylor sum without the factorials. *)
Theorem C42_extrapolation_without_factorials : forall x K D c time dim e r idx d right key,
  good_breaks x -> (1 <= K)%nat -> (d < D)%nat -> valid (sh time) idx ->
  e = XStr "spline" /\ key = K \/ e = XStr "quadratic" /\ key = Nat.min 3 K \/ e = XStr "cubic" /\ key = Nat.min 4 K ->
  synth_coeffs (pp_model x K D c) time dim None e = Ok r ->
  beyond x right (at_ time idx) ->
  exists f : nat -> R,
    (forall k, is_derive_n (piece x K c (end_piece x right) d) k (end_of x right) (f k)) /\
    s_at r idx d = Some (fold_right Rplus 0 (map (fun k => f k * (at_ time idx - end_of x right) ^ k) (seq 0 key))).
Proof. exact C42_exact. Qed.

(** Missing: orders above two, where the claim is false. *)
Theorem C42_spline_extrapolation_partial : forall x K D c time dim e r idx d right,
  good_breaks x -> (1 <= K <= 2)%nat -> (d < D)%nat -> valid (sh time) idx ->
  e = XStr "spline" \/ e = XStr "quadratic" \/ e = XStr "cubic" ->
  synth_coeffs (pp_model x K D c) time dim None e = Ok r ->
  beyond x right (at_ time idx) ->
  s_at r idx d = Some (piece x K c (end_piece x right) d (at_ time idx)).
Proof. exact C42_low_order. Qed.

(** ** C43: false for derivatives at the last break *)
Theorem C43_independence_of_other_times_refuted : exists x K D c t1 t2 r1 r2,
  good_breaks x /\ (1 <= K)%nat /\ (1 <= D)%nat /\
  synth_coeffs (pp_model x K D c) (vec 0 [t1; t2]) None (Some 1%nat) (XStr "constant") = Ok r1 /\
  synth_coeffs (pp_model x K D c) (vec 0 [t1]) None (Some 1%nat) (XStr "constant") = Ok r2 /\
  s_at r1 [0%nat] 0 <> s_at r2 [0%nat] 0.
Proof. exact C43_false. Qed.

Theorem C43_independence_of_other_times_partial : forall x K D c time dim deriv e r r1 idx d,
  good_breaks x -> (1 <= K)%nat -> (d < D)%nat -> valid (sh time) idx ->
  synth_coeffs (pp_model x K D c) time dim deriv e = Ok r ->
  synth_coeffs (pp_model x K D c) (scalar (at_ time idx)) dim deriv e = Ok r1 ->
  (deriv = None \/ deriv = Some 0%nat \/ at_ time idx <> last_break x) ->
  s_at r idx d = s_at r1 [] d.
Proof. exact C43_part. Qed.

(** ** C44 *)
Theorem C44_last_rows_kept : forall breaks order (c : c3), (1 <= c_k c)%nat -> (1 <= order)%nat ->
  let b := base_init breaks (Some (Z.of_nat order)) (Some c) in
  exists c', b_coeffs b = Some c' /\ c_k c' = Nat.min order (c_k c) /\ b_order b = Some (Z.of_nat (Nat.min order (c_k c))) /\
    c_m c' = c_m c /\ c_d c' = c_d c /\ b_dim b = Some (c_d c) /\
    forall r i d, (r < c_k c')%nat -> c_v c' r i d = c_v c (c_k c - Nat.min order (c_k c) + r)%nat i d.
Proof. exact C44_rows. Qed.

Theorem C44_single_break_duplicated : forall b order coeffs,
  b_breaks (base_init (Some [b]) order coeffs) = Some [b; b] /\ b_pieces (base_init (Some [b]) order coeffs) = Some 1%Z.
Proof. exact C44_single. Qed.

Theorem C44_empty_model_raises : forall breaks order time dim deriv e,
  synth_coeffs (base_init breaks order None) time dim deriv e = Err ValueError.
Proof. exact C44_empty. Qed.

(** A static model (one break, one row) is constant in time; only switching the
    extrapolation off makes times other than the break NaN. *)
Theorem C44_static_model_is_constant : forall b0 D c time dim deriv e idx d r, (d < D)%nat -> valid (sh time) idx ->
  synth_coeffs (base_init (Some [b0]) None (Some (mkc3 1 1 D c))) time dim deriv e = Ok r ->
  s_at r idx d = Some (match deriv with None | Some O => c 0%nat 0%nat d | Some (S _) => 0 end) \/
  (at_ time idx <> b0 /\ (exists z, extrap_key 1 e = Ok z /\ (z <= 0)%Z) /\ s_at r idx d = None).
Proof. exact C44_static. Qed.

(** ** C45: false if every time is inside *)
Theorem C45_unknown_method_reported_refuted : exists x K D c time r,
  good_breaks x /\ (1 <= K)%nat /\ (1 <= D)%nat /\ ~ In "cubik"%string documented /\
  synth_coeffs (pp_model x K D c) time None None (XStr "cubik") = Ok r.
Proof. exact C45_false. Qed.

Theorem C45_unknown_method_reported_partial : forall x K D c time dim deriv s t,
  good_breaks x -> (1 <= K)%nat -> (1 <= D)%nat ->
  In t (elems time) -> outside x t -> ~ In s documented ->
  synth_coeffs (pp_model x K D c) time dim deriv (XStr s) = Err ValueError.
Proof. exact C45_part. Qed.

(** ** Cases meeting the hypotheses: breaks 0, 1, 3, order 2, two components *)
Definition ex_x : list R := [0; 1; 3].
Definition ex_c : nat -> nat -> nat -> R := fun r i d => INR (r + 2 * i + 3 * d) + 1.
Example C39_C45_good_breaks : good_breaks ex_x.
Proof.
  split; [cbn; lia|]. intros i Hi. cbn in Hi. assert (H : i = 0%nat \/ i = 1%nat) by lia.
  destruct H as [H|H]; subst i; cbn; lra.
Qed.
Definition ex_t : nd R := vec 0 [2; 5; 3].
Example C39_C43_valid_indices : valid (sh ex_t) [0%nat] /\ valid (sh ex_t) [1%nat] /\ valid (sh ex_t) [2%nat].
Proof. repeat split; constructor; cbn; try lia; constructor. Qed.
Example C39_C40_inside : in_interval ex_x 1 (at_ ex_t [0%nat]).
Proof. split; [cbn; lia|]. cbn. split; [lra|left; lra]. Qed.
Example C41_C42_C45_beyond : beyond ex_x true (at_ ex_t [1%nat]) /\ outside ex_x (at_ ex_t [1%nat]).
Proof. unfold beyond, outside, last_break, first_break. cbn. split; [lra|right; lra]. Qed.
Example C39_C43_call_succeeds : forall dim deriv, exists r, synth_coeffs (pp_model ex_x 2 2 ex_c) ex_t dim deriv (XStr "linear") = Ok r.
Proof.
  intros dim deriv. destruct (C39_ok ex_x 2 2 ex_c ex_t dim deriv (XStr "linear") C39_C45_good_breaks ltac:(lia) ltac:(lia)) as (r & E & _).
  - cbn. discriminate.
  - intros s Es. injection Es as <-. unfold documented. cbn. tauto.
  - exists r. exact E.
Qed.
Example C39_value : forall r, synth_coeffs (pp_model ex_x 2 2 ex_c) ex_t None None (XStr "linear") = Ok r ->
  s_at r [0%nat] 1 = Some 13.
Proof.
  intros r E. rewrite (C39 ex_x 2 2 ex_c ex_t None (XStr "linear") r [0%nat] 1 1 C39_C45_good_breaks ltac:(lia) ltac:(lia) (proj1 C39_C43_valid_indices) E C39_C40_inside).
  f_equal. unfold piece, ex_c. cbn. lra.
Qed.
Example C44_rows : let c := mkc3 4 2 1 (fun r i d => INR (10 * r + i)) in
  exists c', b_coeffs (base_init (Some ex_x) (Some 2%Z) (Some c)) = Some c' /\ c_k c' = 2%nat /\ c_v c' 0%nat 1%nat 0%nat = INR 21.
Proof. eexists. split; [reflexivity|]. split; reflexivity. Qed.

Print Assumptions C39_inside_times_follow_their_piece.
Print Assumptions C39_intervals_partition_the_period.
Print Assumptions C39_documented_calls_succeed.
Print Assumptions C40_derivative_per_year.
Print Assumptions C41_off_is_nan_exactly_outside.
Print Assumptions C41_constant_is_the_end_value.
Print Assumptions C41_linear_is_the_tangent.
Print Assumptions C42_spline_extrapolation_refuted.
Print Assumptions C42_extrapolation_without_factorials.
Print Assumptions C42_spline_extrapolation_partial.
Print Assumptions C43_independence_of_other_times_refuted.
Print Assumptions C43_independence_of_other_times_partial.
Print Assumptions C44_last_rows_kept.
Print Assumptions C44_single_break_duplicated.
Print Assumptions C44_empty_model_raises.
Print Assumptions C44_static_model_is_constant.
Print Assumptions C45_unknown_method_reported_refuted.
Print Assumptions C45_unknown_method_reported_partial.
