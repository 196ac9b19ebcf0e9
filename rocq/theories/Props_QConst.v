(** Theorems about the induction response of shells of constant conductivity
    (C119, C120, C121, C122) *)
From Coq Require Import Reals List Lia Lra.
From Coquelicot Require Import Coquelicot.
From Verif Require Import M_Prelude M_ND M_Rotate M_QConst Spec_Induction Spec_InductionC P_QConst9 P_QConst10 P_QConst11 P_QConst14.
Import ListNotations.
Open Scope R_scope.

(** ** C119
    Deep shells: for every period the returned Q is the response of the
    induction equation, smaller than n/(n+1); C is the penetration depth of
    the field inside; rho_a = w mu0 |C|^2. *)
Theorem C119_deep_shells_give_the_physical_response : forall fuel periods m L n,
  sh periods = [m] -> (1 <= n)%nat -> conducting L ->
  (forall t, In t (elems periods) -> 0 < t /\ deep (2 * PI / t) (4 * PI * / 10 ^ 7) L) ->
  exists l, q_response_constant fuel periods L n = Some (Ok l) /\
    Forall2 (fun t out => let '(c, rho, Q) := out in
      let r0 := snd (nth 0 L (0, 0)) in
      is_response (2 * PI / t) (4 * PI * / 10 ^ 7) n (1000 * r0) (metres L) Q /\ Cmod Q < INR n / (INR n + 1) /\
      0 < fst c /\ Cmod c <= r0 /\
      (forall v dv, field_const (2 * PI / t) (4 * PI * / 10 ^ 7) n (metres L) v dv ->
         Cmult (Cmult (RtoC 1000) c) (Cplus v (Cmult (RtoC (1000 * r0)) dv)) = Cmult (RtoC (1000 * r0)) v) /\
      rho = 2 * PI / t * (4 * PI * / 10 ^ 7) * (Cmod (Cmult c (RtoC 1000))) ^ 2) (elems periods) l.
Proof. exact deep_call. Qed.

(** ** C120
    The power-series loop ends for every argument, and once the bound on its
    rounds suffices the result does not depend on it. *)
Theorem C120_the_call_always_ends : forall periods L n,
  exists f0 r, forall f, (f0 <= f)%nat -> q_response_constant f periods L n = Some r.
Proof. exact call_ends. Qed.
Theorem C120_more_rounds_change_nothing : forall periods L n f f' r,
  (f <= f')%nat -> q_response_constant f periods L n = Some r -> q_response_constant f' periods L n = Some r.
Proof. exact call_mono. Qed.
(** The same for any positive tolerance in place of 1e-10. *)
Theorem C120_every_tolerance : forall n e period L, 0 < e -> (2 <= length L)%nat ->
  exists f0 t, forall f, (f0 <= f)%nat -> response_const f n e period L = Some t.
Proof. exact response_ends. Qed.

(** ** C121
    Shells of any depth: as the tolerance of the power series goes to zero,
    the response tends to the physical one, which is smaller than n/(n+1). *)
Theorem C121_response_converges_to_the_physical_one : forall n period L, (1 <= n)%nat -> 0 < period -> conducting L ->
  exists Q, is_response (2 * PI / period) (4 * PI * / 10 ^ 7) n (1000 * snd (nth 0 L (0, 0))) (metres L) Q /\ Cmod Q < INR n / (INR n + 1) /\
  forall d, 0 < d -> exists e0, 0 < e0 /\ forall e, 0 < e < e0 -> exists f0, forall f, (f0 <= f)%nat ->
    exists c rho q, response_const f n e period L = Some (c, rho, q) /\ Cmod (Cminus q Q) < d.
Proof. intros n period L Hn Hp Hc. apply thin_limit; try assumption. apply seconds_all; assumption. Qed.

(** ** C122
    A vector of periods is required: the documented single number fails, as
    do matrices; at least one shell above the core is required. *)
Theorem C122_single_period_refuted : forall fuel periods L n, sh periods = [] ->
  q_response_constant fuel periods L n = Some (Err TypeError).
Proof. intros fuel periods L n H. unfold q_response_constant. rewrite H. reflexivity. Qed.
Theorem C122_matrix_of_periods_raises : forall fuel periods L n, (2 <= length (sh periods))%nat ->
  q_response_constant fuel periods L n = Some (Err ValueError).
Proof.
  intros fuel periods L n H. unfold q_response_constant. destruct (sh periods) as [|a [|b l]]; [cbn in H; lia | cbn in H; lia | reflexivity].
Qed.
Theorem C122_core_alone_raises : forall fuel periods m L n, sh periods = [S m] -> (length L <= 1)%nat ->
  q_response_constant fuel periods L n = Some (Err OtherError).
Proof.
  intros fuel periods m L n H HL. unfold q_response_constant. rewrite H. unfold elems. rewrite H. rewrite map_length.
  destruct (Nat.leb_spec (length L) 1); [|lia]. destruct (Nat.leb_spec 1 (length (indices [S m]))) as [G|G]; [reflexivity|exfalso].
  cbn in G. lia.
Qed.
(** With a vector of periods and a shell it always succeeds, with one triple
    per period, each computed from its own period only. *)
Theorem C122_vector_of_periods_succeeds : forall periods m L n, sh periods = [m] -> (2 <= length L)%nat ->
  exists f0 l, length l = m /\ forall f, (f0 <= f)%nat ->
    q_response_constant f periods L n = Some (Ok l) /\
    (forall j, (j < m)%nat -> nth_error l j = response_const f n eps (at_ periods [j]) L).
Proof. exact call_succeeds. Qed.

(** ** Witnesses *)
Example C120_C121_conducting : conducting [(1, 6371.2); (10, 5000); (0, 3480)].
Proof. cbn. lra. Qed.
Example C119_deep : forall t, In t [86400; 3600] -> 0 < t /\ deep (2 * PI / t) (4 * PI * / 10 ^ 7) [(1, 6371.2); (10, 5000); (0, 3480)].
Proof. exact deep_example. Qed.
Example C119_C122_periods : sh (vec 0 [86400; 3600]) = [2%nat] /\ elems (vec 0 [86400; 3600]) = [86400; 3600].
Proof. split; reflexivity. Qed.
(** a shell that is not deep *)
Example C121_thin : conducting [(/ 10 ^ 6, 6371.2); (0, 3480)] /\ ~ deep (2 * PI / 86400) (4 * PI * / 10 ^ 7) [(/ 10 ^ 6, 6371.2); (0, 3480)].
Proof. exact thin_example. Qed.
Print Assumptions C119_deep_shells_give_the_physical_response.
Print Assumptions C120_the_call_always_ends.
Print Assumptions C120_more_rounds_change_nothing.
Print Assumptions C120_every_tolerance.
Print Assumptions C121_response_converges_to_the_physical_one.
Print Assumptions C122_single_period_refuted.
Print Assumptions C122_matrix_of_periods_raises.
Print Assumptions C122_core_alone_raises.
Print Assumptions C122_vector_of_periods_succeeds.
