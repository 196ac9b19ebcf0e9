(** C149: another reference radius.  C150: the field on one sphere determines
    the coefficients. *)
From Coq Require Import Reals List Arith ZArith Bool Lia Lra String.
From Verif Require Import M_Prelude M_ND Spec_Field M_Synth M_SynthArr M_Spectrum P_Unique2 P_Unique3.
Import ListNotations.
Open Scope R_scope.

(** ** C149 *)
(** [v] with reference radius a (params.r_surf) and [w] with reference radius a'. *)
Theorem C149_same_field : forall oob s a a' N v w radius theta phi F F' x, 0 < a -> 0 < a' -> (1 <= N)%nat ->
  List.length v = (N * (N + 2))%nat -> List.length w = (N * (N + 2))%nat ->
  let scale n := match s with Internal => (a / a') ^ (n + 2) | External => (a' / a) ^ (n - 1) end in
  (forall n m, (1 <= n <= N)%nat -> (m <= n)%nat -> nth (g_position n m) w 0 = scale n * nth (g_position n m) v 0) ->
  (forall n m, (1 <= n <= N)%nat -> (1 <= m <= n)%nat -> nth (h_position n m) w 0 = scale n * nth (h_position n m) v 0) ->
  synth_values oob a (cvec v) radius theta phi (Some 1%Z) (Some (Z.of_nat N)) (Some (Z.of_nat N)) (Some (src_name s)) false = Ok F ->
  synth_values oob a' (cvec w) radius theta phi (Some 1%Z) (Some (Z.of_nat N)) (Some (Z.of_nat N)) (Some (src_name s)) false = Ok F' ->
  (forall t, In t (elems theta) -> 0 <= t <= 180) -> valid (f_sh F) x -> 0 < bread radius x ->
  f_sh F' = f_sh F /\ f_r F' x = f_r F x /\ f_t F' x = f_t F x /\ f_p F' x = f_p F x.
Proof. intros oob s a a' N v w radius theta phi F F' x Ha Ha' HN Lv Lw scale. exact (referred_field oob s a a' N v w radius theta phi F F' x Ha Ha' HN Lv Lw). Qed.
Print Assumptions C149_same_field.

Theorem C149_same_power_spectrum : forall s a a' N v w r nmax W W', 0 < a -> 0 < a' -> 0 < r ->
  List.length v = (N * (N + 2))%nat -> List.length w = (N * (N + 2))%nat ->
  let scale n := match s with Internal => (a / a') ^ (n + 2) | External => (a' / a) ^ (n - 1) end in
  (forall n m, (1 <= n <= N)%nat -> (m <= n)%nat -> nth (g_position n m) w 0 = scale n * nth (g_position n m) v 0) ->
  (forall n m, (1 <= n <= N)%nat -> (1 <= m <= n)%nat -> nth (h_position n m) w 0 = scale n * nth (h_position n m) v 0) ->
  power_spectrum a (vec 0 v) (Some r) nmax (Some (src_name s)) None = Ok W ->
  power_spectrum a' (vec 0 w) (Some r) nmax (Some (src_name s)) None = Ok W' ->
  sh W' = sh W /\ forall n, (n < nth 0 (sh W) 0)%nat -> at_ W' [n] = at_ W [n].
Proof. intros s a a' N v w r nmax W W' Ha Ha' Hr Lv Lw scale. exact (referred_spectrum s a a' N v w r nmax W W' Ha Ha' Hr Lv Lw). Qed.
Print Assumptions C149_same_power_spectrum.

(** The unit of length is free. *)
Theorem C149_only_the_ratio_of_the_radii_counts : forall oob s a k v N radius theta phi F radius' F' x, k <> 0 -> (1 <= N)%nat -> List.length v = (N * (N + 2))%nat ->
  synth_values oob a (cvec v) radius theta phi (Some 1%Z) (Some (Z.of_nat N)) (Some (Z.of_nat N)) (Some (src_name s)) false = Ok F ->
  synth_values oob (k * a) (cvec v) radius' theta phi (Some 1%Z) (Some (Z.of_nat N)) (Some (Z.of_nat N)) (Some (src_name s)) false = Ok F' ->
  (forall t, In t (elems theta) -> 0 <= t <= 180) -> valid (f_sh F) x -> valid (f_sh F') x -> a <> 0 -> bread radius' x = k * bread radius x ->
  f_r F' x = f_r F x /\ f_t F' x = f_t F x /\ f_p F' x = f_p F x.
Proof. exact units. Qed.
Print Assumptions C149_only_the_ratio_of_the_radii_counts.

(** From a = 2 to a' = 1, degree 1: the factor is 8 inside and 1 outside. *)
Example C149_applies : forall n m, (1 <= n <= 1)%nat -> (m <= n)%nat ->
  nth (g_position n m) [8; 16; 24] 0 = (2 / 1) ^ (n + 2) * nth (g_position n m) [1; 2; 3] 0 /\
  (m <> O -> nth (h_position n m) [8; 16; 24] 0 = (2 / 1) ^ (n + 2) * nth (h_position n m) [1; 2; 3] 0).
Proof.
  intros n m Hn Hm. replace n with 1%nat in * by lia. destruct m as [|[|m]]; [| |lia]; cbn [g_position h_position Nat.eqb Nat.mul Nat.sub Nat.add nth pow]; split; intros; try lra; congruence.
Qed.

(** ** C150 *)
(** Radial and southward components of the sum of an internal and an external
    field, on the sphere of radius r. *)
Theorem C150_sources_are_separated : forall oob a r L K v w v' w', 0 < a -> 0 < r -> (1 <= L)%nat -> (1 <= K)%nat ->
  List.length v = (L * (L + 2))%nat -> List.length v' = (L * (L + 2))%nat -> List.length w = (K * (K + 2))%nat -> List.length w' = (K * (K + 2))%nat ->
  let call c N s theta phi := synth_values oob a (cvec c) (scalar r) (scalar theta) (scalar phi) (Some 1%Z) (Some (Z.of_nat N)) (Some (Z.of_nat N)) (Some (src_name s)) false in
  (forall theta phi F G F' G', 0 <= theta <= 180 ->
    call v L Internal theta phi = Ok F -> call w K External theta phi = Ok G -> call v' L Internal theta phi = Ok F' -> call w' K External theta phi = Ok G' ->
    f_r F [] + f_r G [] = f_r F' [] + f_r G' [] /\ f_t F [] + f_t G [] = f_t F' [] + f_t G' []) ->
  v = v' /\ w = w'.
Proof. exact separation. Qed.
Print Assumptions C150_sources_are_separated.

(** For one source the radial or the southward component is enough. *)
Theorem C150_one_component_determines_one_source : forall oob a r N s v v', 0 < a -> 0 < r -> (1 <= N)%nat ->
  List.length v = (N * (N + 2))%nat -> List.length v' = (N * (N + 2))%nat ->
  let call c theta phi := synth_values oob a (cvec c) (scalar r) (scalar theta) (scalar phi) (Some 1%Z) (Some (Z.of_nat N)) (Some (Z.of_nat N)) (Some (src_name s)) false in
  (forall theta phi F F', 0 <= theta <= 180 -> call v theta phi = Ok F -> call v' theta phi = Ok F' -> f_r F [] = f_r F' []) \/
  (forall theta phi F F', 0 <= theta <= 180 -> call v theta phi = Ok F -> call v' theta phi = Ok F' -> f_t F [] = f_t F' []) ->
  v = v'.
Proof. exact one_component. Qed.
Print Assumptions C150_one_component_determines_one_source.

(** The radial component alone does not tell the sources apart. *)
Theorem C150_radial_component_does_not_separate : forall oob a r, 0 < a -> 0 < r -> exists q, q <> 0 /\
  let call c s theta phi := synth_values oob a (cvec c) (scalar r) (scalar theta) (scalar phi) (Some 1%Z) (Some 1%Z) (Some 1%Z) (Some (src_name s)) false in
  forall theta phi, 0 <= theta <= 180 -> exists F G, call [1; 0; 0] Internal theta phi = Ok F /\ call [q; 0; 0] External theta phi = Ok G /\ f_r F [] = f_r G [].
Proof. exact radial_ambiguous. Qed.
Print Assumptions C150_radial_component_does_not_separate.

(** An axial and an equatorial dipole differ somewhere. *)
Example C150_applies : forall oob,
  let call c theta phi := synth_values oob 6371.2 (cvec c) (scalar 6771.2) (scalar theta) (scalar phi) (Some 1%Z) (Some 1%Z) (Some 1%Z) (Some (src_name Internal)) false in
  ~ (forall theta phi F F', 0 <= theta <= 180 -> call [1; 0; 0] theta phi = Ok F -> call [0; 1; 0] theta phi = Ok F' -> f_r F [] = f_r F' []).
Proof.
  intros oob call H. enough (E : [1; 0; 0] = [0; 1; 0]) by (pose proof (f_equal (fun l => nth 0 l 0) E) as X; cbn in X; lra).
  apply (one_component oob 6371.2 6771.2 1 Internal); [lra|lra|lia|reflexivity|reflexivity|left; exact H].
Qed.
