(** Calls of q_response_1D: outputs, shapes and options. *)
From Coq Require Import Reals List Bool Arith String Lia Lra.
From Coquelicot Require Import Coquelicot.
From Verif Require Import M_Prelude M_ND M_Coord P_Coord M_Rotate M_QConst M_QCall Spec_Induction P_Response P_Response2 P_Induction P_QConst11.
Import ListNotations.
Open Scope R_scope.

Lemma PI_close : 3.1415 < PI < 3.1416.
Proof.
  pose proof (PI_2_3_7_ineq 3) as [L U].
  unfold tg_alt, PI_2_3_7_tg, Ratan_seq in L, U.
  cbn [sum_f_R0 Nat.add Nat.mul] in L, U. cbn [pow Nat.add Nat.mul INR] in L, U. lra.
Qed.

(** ** phi *)
Lemma phase_close c : exists a, - PI < a <= PI /\ fst c = Cmod c * cos a /\ snd c = Cmod c * sin a /\
  phase c = 90 + 57.3 * a /\ Rabs (phase c - (90 + a * (180 / PI))) <= 0.015.
Proof.
  exists (np_angle c). unfold np_angle. pose proof (atan2_range (snd c) (fst c)) as [L U].
  pose proof (atan2_polar (snd c) (fst c)) as [X Y]. split; [split; assumption|].
  assert (M : Cmod c = sqrt (fst c ^ 2 + snd c ^ 2)) by reflexivity.
  rewrite M. split; [symmetry; exact X|]. split; [symmetry; exact Y|]. split; [reflexivity|].
  unfold phase, np_angle. set (a := np_arctan2 (snd c) (fst c)) in *.
  replace (90 + 57.3 * a - (90 + a * (180 / PI))) with (a * ((57.3 * PI - 180) / PI)) by (field; pose proof PI_RGT_0; lra).
  pose proof PI_close as P. rewrite Rabs_mult.
  assert (A : Rabs a <= PI) by (apply Rabs_le; lra).
  assert (B : 0 <= 57.3 * PI - 180 <= 0.015) by lra.
  unfold Rdiv. rewrite Rabs_mult, (Rabs_pos_eq (57.3 * PI - 180)), (Rabs_pos_eq (/ PI)) by (try (apply Rlt_le, Rinv_0_lt_compat); lra).
  assert (D : Rabs a * / PI <= 1).
  { apply Rmult_le_reg_r with PI; [lra|]. rewrite Rmult_assoc, Rinv_l by lra. lra. }
  assert (E : 0 <= Rabs a * / PI) by (apply Rmult_le_pos; [apply Rabs_pos|apply Rlt_le, Rinv_0_lt_compat; lra]).
  replace (Rabs a * ((57.3 * PI - 180) * / PI)) with ((Rabs a * / PI) * (57.3 * PI - 180)) by ring. nra.
Qed.
Lemma phase_quadrant c : 0 < fst c -> snd c <= 0 -> -0.01 < phase c <= 90.
Proof.
  intros X Y. unfold phase, np_angle, np_arctan2. destruct (Rlt_dec 0 (fst c)); [|contradiction].
  assert (D : snd c / fst c <= 0).
  { apply Rmult_le_reg_r with (fst c); [exact X|]. unfold Rdiv. rewrite Rmult_assoc, Rinv_l by lra. lra. }
  pose proof (atan_bound (snd c / fst c)) as [L _]. pose proof PI_close.
  assert (A : atan (snd c / fst c) <= 0).
  { destruct D as [D|D]; [left; rewrite <- atan_0; apply atan_increasing, D|right; rewrite D; apply atan_0]. }
  lra.
Qed.

(** ** The quadratic kind *)
Lemma quad_vector periods m layers n : sh periods = [m] -> (1 <= List.length layers)%nat ->
  q_response_quadratic periods layers n = Ok (map (response_quad n layers) (elems periods)).
Proof.
  intros H L. unfold q_response_quadratic. rewrite H. destruct (Nat.eqb_spec (List.length layers) 0); [lia|]. reflexivity.
Qed.
Lemma rho_quad n layers period : let '(c, rho, _, _) := response_quad n layers period in
  rho = Cmult Ci (RtoC (2 * PI / period * (4 * PI * / 10 ^ 7) * Cmod (Cmult (RtoC 1000) c) ^ 2)).
Proof.
  unfold response_quad. cbv zeta. rewrite (Cmult_comm _ (RtoC 1000)). unfold omega, mu, Ci.
  set (A := Cmod _ ^ 2). clearbody A. unfold Cmult, RtoC. cbn [fst snd]. f_equal; ring.
Qed.
Lemma C_ne_quad n layers period : 0 < period -> earthlike layers ->
  let c := C_response (omega period) n (map (fun sr => (fst sr, 1000 * snd sr)) layers) in 0 < fst c /\ snd c <= 0.
Proof.
  intros P E c. destruct (C_quadrant period _ n P (layers_earthlike _ E)) as (A & B & _). split; assumption.
Qed.
Lemma rho_quad_imaginary n layers period : 0 < period -> earthlike layers ->
  let '(c, rho, _, _) := response_quad n layers period in fst rho = 0 /\ 0 < snd rho.
Proof.
  intros P E. pose proof (rho_quad n layers period) as H. pose proof (C_ne_quad n layers period P E) as [X _].
  destruct (response_quad n layers period) as [[[c rho] ph] q] eqn:R.
  unfold response_quad in R. injection R as Ec _ _ _. rewrite Ec in X. rewrite H.
  assert (W := omega_pos _ P). assert (M := mu_pos). unfold mu in M.
  assert (A : 0 < Cmod (Cmult (RtoC 1000) c)).
  { apply Cmod_gt_0. intros Z. apply (f_equal fst) in Z. unfold Cmult, RtoC in Z. cbn [fst snd] in Z. lra. }
  assert (A2 : 0 < Cmod (Cmult (RtoC 1000) c) ^ 2) by (apply pow_lt, A).
  set (B := Cmod _ ^ 2) in *. clearbody B. unfold Cmult, Ci, RtoC. cbn [fst snd]. split; [ring|].
  assert (0 < 2 * PI / period * (4 * PI * / 10 ^ 7) * B) by (apply Rmult_lt_0_compat; [apply Rmult_lt_0_compat|]; assumption). lra.
Qed.

(** ** The constant kind *)
Lemma rho_const fuel n e period layers c rho Q : response_const fuel n e period layers = Some (c, rho, Q) ->
  rho = 2 * PI / period * (4 * PI * / 10 ^ 7) * Cmod (Cmult (RtoC 1000) c) ^ 2.
Proof.
  unfold response_const. destruct (b_layers _ _ _ _ _) as [b|]; [|discriminate]. cbv zeta. set (cc := C_const _ b). clearbody cc.
  intros H. assert (Hc : cc = c) by congruence.
  assert (Hr : / 10 ^ 7 * 8 * PI ^ 2 / period * Cmod (Cmult cc (RtoC 1000)) ^ 2 = rho) by congruence.
  rewrite <- Hr, <- Hc, (Cmult_comm _ (RtoC 1000)). unfold Rdiv. ring.
Qed.

Lemma call_constant fuel periods layers n l : q_response_1D fuel periods layers n (Some "constant"%string) = Some (Ok l) ->
  Forall2 (fun t out => let '(c, rho, ph, Q) := out in
    exists r, response_const fuel n eps t layers = Some (c, r, Q) /\ rho = RtoC r /\ ph = phase c) (elems periods) l.
Proof.
  unfold q_response_1D. destruct (Nat.ltb_spec 1 (List.length (sh periods))) as [HL|HL]; [discriminate|]. cbn [String.eqb Ascii.eqb Bool.eqb].
  unfold q_response_constant. destruct (sh periods) as [|m [|m2 ms]] eqn:S; [discriminate| |discriminate].
  destruct ((1 <=? List.length (elems periods)) && (List.length layers <=? 1))%nat%bool; [discriminate|].
  destruct (List.length layers =? 0)%nat; [discriminate|].
  destruct (all_some _) as [r|] eqn:A; [|discriminate]. intros H. assert (El : l = map (fun out => let '(c, rho, Q) := out in (c, RtoC rho, phase c, Q)) r) by congruence.
  subst l. clear H S HL m. revert r A. generalize (elems periods) as ts.
  induction ts as [|t ts IH]; intros r; cbn [map all_some].
  - intros [= <-]. constructor.
  - destruct (response_const fuel n eps t layers) as [[[c rr] Q]|] eqn:E; [|discriminate].
    destruct (all_some _) as [r'|] eqn:A; [|discriminate]. intros [= <-]. cbn [map]. constructor; [|apply IH; reflexivity].
    exists rr. auto.
Qed.

(** ** The statements of Props_QCall *)
Lemma quadratic_call fuel periods layers n kind l : kind = None \/ kind = Some "quadratic"%string ->
  q_response_1D fuel periods layers n kind = Some (Ok l) -> l = map (response_quad n layers) (elems periods).
Proof.
  intros K. unfold q_response_1D. destruct (1 <? List.length (sh periods))%nat; [discriminate|].
  assert (E : match kind with None => "quadratic"%string | Some k => k end = "quadratic"%string) by (destruct K; subst kind; reflexivity).
  rewrite E. cbn [String.eqb Ascii.eqb Bool.eqb]. unfold q_response_quadratic.
  destruct (_ =? 0)%nat; [discriminate|]. destruct (_ && _)%bool; [discriminate|]. intros H. congruence.
Qed.
Lemma F2_map {A B} (P : A -> B -> Prop) (f : A -> B) ts : (forall t, In t ts -> P t (f t)) -> Forall2 P ts (map f ts).
Proof. induction ts as [|t ts IH]; intros H; cbn; constructor; [apply H; left; reflexivity|apply IH; intros; apply H; right; assumption]. Qed.

Lemma constant_resistivity fuel periods layers n l :
  q_response_1D fuel periods layers n (Some "constant"%string) = Some (Ok l) ->
  Forall2 (fun t out => let '(c, rho, _, _) := out in rho = RtoC (2 * PI / t * (4 * PI * / 10 ^ 7) * Cmod (Cmult (RtoC 1000) c) ^ 2)) (elems periods) l.
Proof.
  intros H. apply call_constant in H. induction H as [|t [[[c rho] ph] Q] ts l Ht H IH]; constructor; [|exact IH].
  destruct Ht as (r & E & -> & _). rewrite (rho_const _ _ _ _ _ _ _ _ E). reflexivity.
Qed.
Lemma quadratic_resistivity fuel periods layers n kind l : kind = None \/ kind = Some "quadratic"%string ->
  q_response_1D fuel periods layers n kind = Some (Ok l) ->
  Forall2 (fun t out => let '(c, rho, _, _) := out in rho = Cmult Ci (RtoC (2 * PI / t * (4 * PI * / 10 ^ 7) * Cmod (Cmult (RtoC 1000) c) ^ 2)) /\
    (0 < t -> earthlike layers -> 0 < snd rho)) (elems periods) l.
Proof.
  intros K H. rewrite (quadratic_call _ _ _ _ _ _ K H). apply F2_map. intros t _.
  pose proof (rho_quad n layers t) as A. pose proof (rho_quad_imaginary n layers t) as B.
  destruct (response_quad n layers t) as [[[c rho] ph] Q]. split; [exact A|]. intros P E. apply B; assumption.
Qed.
Lemma resistivity_refuted : ~ (forall fuel periods layers n kind l,
  (forall t, In t (elems periods) -> 0 < t) -> earthlike layers ->
  q_response_1D fuel periods layers n kind = Some (Ok l) ->
  forall c rho phi Q, In (c, rho, phi, Q) l -> snd rho = 0).
Proof.
  intros H. set (L := [(1, 6371.2)]). assert (E : earthlike L) by (cbn; lra).
  pose proof (rho_quad_imaginary 1 L 86400 ltac:(lra) E) as B.
  destruct (response_quad 1 L 86400) as [[[c rho] ph] Q] eqn:R.
  specialize (H 0%nat (vec 0 [86400]) L 1%nat None [(c, rho, ph, Q)]).
  assert (Z : snd rho = 0); [|lra].
  apply (H) with c ph Q; [|exact E| |left; reflexivity].
  - change (elems (vec 0 [86400])) with [86400]. intros t [<-|[]]. lra.
  - unfold q_response_1D. cbn [sh vec List.length Nat.ltb Nat.leb String.eqb Ascii.eqb Bool.eqb].
    rewrite (quad_vector _ 1 L 1); [|reflexivity|cbn; lia]. change (elems (vec 0 [86400])) with [86400]. cbn [map]. rewrite R. reflexivity.
Qed.

Lemma outputs_phase fuel periods layers n kind l c rho phi Q :
  q_response_1D fuel periods layers n kind = Some (Ok l) -> In (c, rho, phi, Q) l -> phi = phase c.
Proof.
  intros H I. destruct (String.eqb_spec (match kind with None => "quadratic"%string | Some k => k end) "constant") as [E|N].
  - assert (kind = Some "constant"%string) as -> by (destruct kind; [congruence|discriminate]).
    apply call_constant in H. induction H as [|t [[[c' rho'] ph'] Q'] ts l Ht H IH]; [destruct I|]. destruct I as [I|I]; [|exact (IH I)].
    injection I as <- <- <- <-. destruct Ht as (r & _ & _ & ->). reflexivity.
  - assert (K : kind = None \/ kind = Some "quadratic"%string).
    { destruct kind as [k|]; [|left; reflexivity]. right. f_equal. unfold q_response_1D in H.
      destruct (1 <? _)%nat; [discriminate|]. destruct (String.eqb_spec k "constant"); [contradiction|].
      destruct (String.eqb_spec k "quadratic"); [assumption|discriminate]. }
    rewrite (quadratic_call _ _ _ _ _ _ K H) in I. apply in_map_iff in I. destruct I as (t & I & _).
    unfold response_quad in I. cbv zeta in I. injection I as <- _ <- _. reflexivity.
Qed.
Lemma phase_angle fuel periods layers n kind l c rho phi Q :
  q_response_1D fuel periods layers n kind = Some (Ok l) -> In (c, rho, phi, Q) l ->
  exists a, - PI < a <= PI /\ fst c = Cmod c * cos a /\ snd c = Cmod c * sin a /\
    Rabs (phi - (90 + a * (180 / PI))) <= 0.015.
Proof.
  intros H I. rewrite (outputs_phase _ _ _ _ _ _ _ _ _ _ H I). destruct (phase_close c) as (a & A & B & D & _ & F). exists a. auto.
Qed.
Lemma phase_range fuel periods layers n kind l c rho phi Q :
  kind = None \/ kind = Some "quadratic"%string ->
  (forall t, In t (elems periods) -> 0 < t) -> earthlike layers ->
  q_response_1D fuel periods layers n kind = Some (Ok l) -> In (c, rho, phi, Q) l ->
  0 < fst c /\ snd c <= 0 /\ -0.01 < phi <= 90.
Proof.
  intros K P E H I. pose proof (outputs_phase _ _ _ _ _ _ _ _ _ _ H I) as ->.
  rewrite (quadratic_call _ _ _ _ _ _ K H) in I. apply in_map_iff in I. destruct I as (t & I & It).
  pose proof (C_ne_quad n layers t (P t It) E) as [X Y].
  unfold response_quad in I. cbv zeta in I. injection I as Ec _ _ _. rewrite Ec in X, Y.
  split; [exact X|]. split; [exact Y|]. apply phase_quadrant; assumption.
Qed.

Lemma quadratic_physical fuel periods m layers n :
  sh periods = [m] -> (forall t, In t (elems periods) -> 0 < t) -> earthlike layers -> (1 <= n)%nat ->
  exists l, q_response_1D fuel periods layers n (Some "quadratic"%string) = Some (Ok l) /\
    Forall2 (fun t out => let '(_, _, _, Q) := out in
      let a := 1000 * snd (nth 0 layers (0, 0)) in
      let field := field_in (2 * PI / t) (4 * PI * / 10 ^ 7) n (map (fun sr => (fst sr, 1000 * snd sr)) layers) in
      (forall e, exists i v dv, field v dv /\ matches a n e i v dv) /\
      (forall e i v dv, field v dv -> matches a n e i v dv -> i = Cmult Q e) /\
      Cmod Q < INR n / (INR n + 1)) (elems periods) l.
Proof.
  intros Hs P E Hn. exists (map (response_quad n layers) (elems periods)). split.
  - unfold q_response_1D. rewrite Hs. cbn [List.length Nat.ltb Nat.leb String.eqb Ascii.eqb Bool.eqb].
    rewrite (quad_vector _ m layers n Hs); [reflexivity|]. destruct layers; [destruct E|cbn; lia].
  - apply F2_map. intros t It. specialize (P t It). unfold response_quad. cbv zeta.
    pose proof (layers_earthlike _ E) as E'. set (ls := map _ layers) in *.
    assert (T : 1000 * snd (nth 0 layers (0, 0)) = top ls).
    { unfold top, ls. destruct layers; [destruct E|reflexivity]. }
    rewrite T. change (4 * PI * / 10 ^ 7) with mu. assert (W := omega_pos _ P). split; [|split].
    + intros e. apply response_exists; assumption.
    + intros e i v dv F M. apply (response_matches _ n ls e i v dv W Hn E' F M).
    + apply P_Response2.Q_bound; assumption.
Qed.

Lemma single_period fuel periods layers n : sh periods = [] -> (2 <= List.length layers)%nat ->
  q_response_1D fuel periods layers n None = Some (Err TypeError).
Proof.
  intros H L. unfold q_response_1D. rewrite H. cbn [List.length Nat.ltb Nat.leb String.eqb Ascii.eqb Bool.eqb].
  unfold q_response_quadratic. rewrite H. destruct layers as [|a [|b l]]; cbn in L; [lia|lia|]. reflexivity.
Qed.
Lemma single_layer fuel periods sr n : sh periods = [] -> exists out, q_response_1D fuel periods [sr] n None = Some (Ok [out]).
Proof.
  intros H. unfold q_response_1D. rewrite H. cbn [List.length Nat.ltb Nat.leb String.eqb Ascii.eqb Bool.eqb].
  unfold q_response_quadratic, elems. rewrite H. eexists. reflexivity.
Qed.
Lemma matrix_call fuel periods layers n kind : (2 <= List.length (sh periods))%nat ->
  q_response_1D fuel periods layers n kind = Some (Err ValueError).
Proof. intros H. unfold q_response_1D. destruct (Nat.ltb_spec 1 (List.length (sh periods))); [reflexivity|lia]. Qed.
Lemma unknown_kind fuel periods layers n k : k <> "quadratic"%string -> k <> "constant"%string ->
  q_response_1D fuel periods layers n (Some k) = Some (Err ValueError).
Proof.
  intros A B. unfold q_response_1D. destruct (1 <? _)%nat; [reflexivity|].
  destruct (String.eqb_spec k "constant"); [contradiction|]. destruct (String.eqb_spec k "quadratic"); [contradiction|reflexivity].
Qed.
Lemma no_layers fuel periods n : (List.length (sh periods) <= 1)%nat -> q_response_1D fuel periods [] n None = Some (Err IndexError).
Proof.
  intros H. unfold q_response_1D. destruct (Nat.ltb_spec 1 (List.length (sh periods))); [lia|]. reflexivity.
Qed.
