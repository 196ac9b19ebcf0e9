(** Theorems about calls of q_response_1D (C132, C133, C134) *)
From Coq Require Import Reals List String Lia Lra.
From Coquelicot Require Import Coquelicot.
From Verif Require Import M_Prelude M_ND M_Rotate M_QConst M_QCall Spec_Induction P_Response P_Response2 P_Induction P_QConst11 P_QCall.
Import ListNotations.
Open Scope R_scope.

(** ** C132: the apparent resistivity rho_a = w mu0 |C|^2, C in metres. *)
Definition resistivity (t : R) (c : C) : R := 2 * PI / t * (4 * PI * / 10 ^ 7) * Cmod (Cmult (RtoC 1000) c) ^ 2.

Theorem C132_resistivity_of_constant_layers_partial : forall fuel periods layers n l,
  q_response_1D fuel periods layers n (Some "constant"%string) = Some (Ok l) ->
  Forall2 (fun t out => let '(c, rho, _, _) := out in rho = RtoC (resistivity t c)) (elems periods) l.
Proof. exact constant_resistivity. Qed.

(** For quadratic layers the array is purely imaginary. *)
Theorem C132_resistivity_of_quadratic_layers_is_imaginary_partial : forall fuel periods layers n kind l,
  kind = None \/ kind = Some "quadratic"%string -> q_response_1D fuel periods layers n kind = Some (Ok l) ->
  Forall2 (fun t out => let '(c, rho, _, _) := out in rho = Cmult Ci (RtoC (resistivity t c)) /\
    (0 < t -> earthlike layers -> 0 < snd rho)) (elems periods) l.
Proof. exact quadratic_resistivity. Qed.

Theorem C132_resistivity_is_real_refuted : ~ (forall fuel periods layers n kind l,
  (forall t, In t (elems periods) -> 0 < t) -> earthlike layers ->
  q_response_1D fuel periods layers n kind = Some (Ok l) ->
  forall c rho phi Q, In (c, rho, phi, Q) l -> snd rho = 0).
Proof. exact resistivity_refuted. Qed.

(** ** C133: phi is 90 degrees plus the phase angle of C. *)
Theorem C133_phase_angle : forall fuel periods layers n kind l c rho phi Q,
  q_response_1D fuel periods layers n kind = Some (Ok l) -> In (c, rho, phi, Q) l ->
  exists a, - PI < a <= PI /\ fst c = Cmod c * cos a /\ snd c = Cmod c * sin a /\
    Rabs (phi - (90 + a * (180 / PI))) <= 0.015.
Proof. exact phase_angle. Qed.

Theorem C133_phase_between_0_and_90 : forall fuel periods layers n kind l c rho phi Q,
  kind = None \/ kind = Some "quadratic"%string ->
  (forall t, In t (elems periods) -> 0 < t) -> earthlike layers ->
  q_response_1D fuel periods layers n kind = Some (Ok l) -> In (c, rho, phi, Q) l ->
  0 < fst c /\ snd c <= 0 /\ -0.01 < phi <= 90.
Proof. exact phase_range. Qed.

(** ** C134: arguments.  The default is the quadratic kind. *)
Theorem C134_default_kind : forall fuel periods layers n,
  q_response_1D fuel periods layers n None = q_response_1D fuel periods layers n (Some "quadratic"%string).
Proof. reflexivity. Qed.

(** A vector of periods gives, for quadratic layers, one answer per period;
    its Q is the response of the induction equation. *)
Theorem C134_quadratic_vector_gives_the_physical_response : forall fuel periods m layers n,
  sh periods = [m] -> (forall t, In t (elems periods) -> 0 < t) -> earthlike layers -> (1 <= n)%nat ->
  exists l, q_response_1D fuel periods layers n (Some "quadratic"%string) = Some (Ok l) /\
    Forall2 (fun t out => let '(_, _, _, Q) := out in
      let a := 1000 * snd (nth 0 layers (0, 0)) in
      let field := field_in (2 * PI / t) (4 * PI * / 10 ^ 7) n (map (fun sr => (fst sr, 1000 * snd sr)) layers) in
      (forall e, exists i v dv, field v dv /\ matches a n e i v dv) /\
      (forall e i v dv, field v dv -> matches a n e i v dv -> i = Cmult Q e) /\
      Cmod Q < INR n / (INR n + 1)) (elems periods) l.
Proof. exact quadratic_physical. Qed.

(** The documented single number fails as soon as there are two layers. *)
Theorem C134_single_period_refuted : forall fuel periods layers n, sh periods = [] -> (2 <= List.length layers)%nat ->
  q_response_1D fuel periods layers n None = Some (Err TypeError).
Proof. exact single_period. Qed.
Theorem C134_single_period_of_a_uniform_earth : forall fuel periods sr n, sh periods = [] ->
  exists out, q_response_1D fuel periods [sr] n None = Some (Ok [out]).
Proof. exact single_layer. Qed.

Theorem C134_matrix_of_periods_raises : forall fuel periods layers n kind, (2 <= List.length (sh periods))%nat ->
  q_response_1D fuel periods layers n kind = Some (Err ValueError).
Proof. exact matrix_call. Qed.
Theorem C134_unknown_kind_raises : forall fuel periods layers n k, k <> "quadratic"%string -> k <> "constant"%string ->
  q_response_1D fuel periods layers n (Some k) = Some (Err ValueError).
Proof. exact unknown_kind. Qed.
Theorem C134_without_layers_raises : forall fuel periods n, (List.length (sh periods) <= 1)%nat ->
  q_response_1D fuel periods [] n None = Some (Err IndexError).
Proof. exact no_layers. Qed.

(** ** Witnesses *)
Example C132_C133_C134_earth : earthlike [(0.01, 6371.2); (1, 5500); (10, 3480)] /\
  sh (vec 0 [86400; 3600]) = [2%nat] /\ (forall t, In t (elems (vec 0 [86400; 3600])) -> 0 < t).
Proof.
  split; [cbn; lra|]. split; [reflexivity|]. change (elems (vec 0 [86400; 3600])) with [86400; 3600].
  intros t [<-|[<-|[]]]; lra.
Qed.
Example C132_C133_runs : exists l, q_response_1D 0 (vec 0 [86400; 3600]) [(0.01, 6371.2); (1, 5500); (10, 3480)] 1 None = Some (Ok l) /\ List.length l = 2%nat.
Proof. eexists. split; reflexivity. Qed.
Example C132_constant_runs : exists fuel l, q_response_1D fuel (vec 0 [86400; 3600]) [(0.01, 6371.2); (1, 5500); (10, 3480)] 1 (Some "constant"%string) = Some (Ok l) /\ List.length l = 2%nat.
Proof.
  destruct (call_succeeds (vec 0 [86400; 3600]) 2 [(0.01, 6371.2); (1, 5500); (10, 3480)] 1) as (f & l & L & E); [reflexivity|cbn; lia|].
  destruct (E f (le_n _)) as [E1 _]. exists f. eexists. unfold q_response_1D. cbn [sh vec List.length Nat.ltb Nat.leb String.eqb Ascii.eqb Bool.eqb].
  rewrite E1. split; [reflexivity|]. rewrite map_length. exact L.
Qed.

Print Assumptions C132_resistivity_of_constant_layers_partial.
Print Assumptions C132_resistivity_of_quadratic_layers_is_imaginary_partial.
Print Assumptions C132_resistivity_is_real_refuted.
Print Assumptions C133_phase_angle.
Print Assumptions C133_phase_between_0_and_90.
Print Assumptions C134_default_kind.
Print Assumptions C134_quadratic_vector_gives_the_physical_response.
Print Assumptions C134_single_period_refuted.
Print Assumptions C134_single_period_of_a_uniform_earth.
Print Assumptions C134_matrix_of_periods_raises.
Print Assumptions C134_unknown_kind_raises.
Print Assumptions C134_without_layers_raises.
