(** Theorems about B-splines (C75, C76), about spherical harmonic models
    (C78, C79) and about their SHC export (C46, C77).

    Breaks x (or b) are strictly increasing; [piece], [in_interval] etc. are in
    Spec_PP, [bspline] and [spline] (Cox-de Boor) in Spec_Spline.  [None] is NaN. *)
From Coq Require Import Reals QArith Qreals List Arith ZArith String Ascii Bool Lia Lra.
From Coquelicot Require Import Coquelicot.
From Verif Require P_Spline.
From Verif Require Import M_Prelude M_ND Spec_Field Spec_Spline Spec_PP Spec_SHC M_Synth M_SynthArr M_Spectrum M_Spline M_PP M_Model M_FromSpline
  M_Text M_SHC M_SHCModel P_PP P_Model P_Model2 P_Spline3 P_Spline4 P_SHCModel P_SHCModel2 W_SHCModel.
Import ListNotations.
Open Scope R_scope.

Local Notation degree_model x K D c source := (model_init (Some x) None (Some (mkc3 K (List.length x - 1) D c)) source).

(** ** C75 *)
(** Column m is the m-th B-spline. *)
Theorem C75_collocation_entries_are_bsplines : forall b order t x M i p m,
  good_breaks b -> (1 <= order)%nat -> augment_breaks b (Z.of_nat order) = Ok t ->
  colloc_matrix x t order None = Ok M -> (i < List.length x)%nat -> in_interval b p (nth i x 0) -> (m < o_cols M)%nat ->
  o_at M i m = Some (bspline t (order - 1) m (nth i x 0)).
Proof.
  intros b order t x M i p m G Ho Ea E Hi I Hm.
  destruct (colloc_is_bspline b order t x None M i p m G Ho Ea E Hi I Hm) as (P & v & HP & Ev & D). cbn in D. rewrite Ev, (HP _ I). congruence.
Qed.

(** With deriv: the derivative (per day) of the polynomial P that the B-spline
    equals on the interval of the time. *)
Theorem C75_derivative_entries : forall b order t x deriv M i p m,
  good_breaks b -> (1 <= order)%nat -> augment_breaks b (Z.of_nat order) = Ok t ->
  colloc_matrix x t order (Some deriv) = Ok M -> (i < List.length x)%nat -> in_interval b p (nth i x 0) -> (m < o_cols M)%nat ->
  exists P v, (forall y, in_interval b p y -> bspline t (order - 1) m y = P y) /\
    o_at M i m = Some v /\ is_derive_n P deriv (nth i x 0) v.
Proof. intros b order t x deriv M i p m G Ho Ea E Hi I Hm. exact (colloc_is_bspline b order t x (Some deriv) M i p m G Ho Ea E Hi I Hm). Qed.

(** ** C76 *)
Theorem C76_piecewise_polynomial_is_the_spline : forall b order t rows dim c,
  good_breaks b -> (1 <= order)%nat -> augment_breaks b (Z.of_nat order) = Ok t -> (List.length t - order <= rows)%nat ->
  exists C, pp_from_bspline rows dim c t order = Ok (mkc3 order (List.length b - 1) dim C, b) /\
    forall p d x, (d < dim)%nat -> in_interval b p x ->
      piece b order C p d x = spline t (order - 1) (fun i => c i d) (List.length t - order) x.
Proof. intros b order t rows dim c G Ho Ea Hr. exact (pp_is_spline b order t G Ho Ea rows dim c Hr). Qed.

(** A model made by from_bspline takes the values of the spline. *)
Theorem C76_model_from_spline_evaluates_the_spline : forall b order t rows dim c source time nmax e,
  good_breaks b -> (1 <= order)%nat -> augment_breaks b (Z.of_nat order) = Ok t -> (List.length t - order <= rows)%nat ->
  exists M, from_bspline rows dim c t order source = Ok M /\
    forall r, model_coeffs M time nmax None e = Ok r ->
    forall idx d, valid (sh time) idx -> (d < dim)%nat -> first_break b <= at_ time idx <= last_break b ->
      s_at r idx d = Some (spline t (order - 1) (fun i => c i d) (List.length t - order) (at_ time idx)).
Proof. intros b order t rows dim c source time nmax e G Ho Ea Hr. exact (from_bspline_evaluates b order t G Ho Ea rows dim c source time nmax e Hr). Qed.

(** Sorted knots with full end multiplicity, but repeated inside: order 2,
    knots 0 0 1 1 2 2 3 3; at 2.5 the result is 0 instead of 1/2. *)
Theorem C76_repeated_inner_knots_refuted : exists knots rows c C breaks p x,
  bspline_check knots rows 1 = true /\ (forall i, (i + 1 < List.length knots)%nat -> nth i knots 0 <= nth (i + 1) knots 0) /\
  nth 0 knots 0 = nth 1 knots 0 /\ nth (List.length knots - 1) knots 0 = nth (List.length knots - 2) knots 0 /\
  pp_from_bspline rows 1 c knots 2 = Ok (C, breaks) /\ in_interval breaks p x /\
  piece breaks 2 (c_v C) p 0 x <> spline knots 1 (fun i => c i 0%nat) (List.length knots - 2) x.
Proof.
  destruct rep_piece as (C & E & P). exists rep_knots, 6%nat, rep_coeffs, (mkc3 2 3 1 C), [0; 1; 2; 3], 2%nat, 2.5.
  split; [exact check_rep|]. split.
  { intros i Hi. do 7 (destruct i as [|i]; [cbn; lra|]). cbn in Hi. lia. }
  split; [reflexivity|]. split; [reflexivity|]. split; [exact E|]. split.
  { split; [cbn; lia|]. cbn. lra. }
  cbn [c_v]. rewrite P. change (List.length rep_knots - 2)%nat with 6%nat. rewrite rep_spline. lra.
Qed.

(** ** C78 *)
(** [piece_field ... N i r t p day] is the field at radius r, colatitude t,
    longitude p of the coefficients up to degree N that piece i has at [day]. *)
Theorem C78_field_and_derivatives_inside_the_period : forall oob a s x K D c time radius theta phi nmax deriv e F idx i N,
  good_breaks x -> (1 <= K)%nat ->
  model_values oob a (degree_model x K D c (Some (src_name s))) time radius theta phi nmax deriv None e = Ok F ->
  (forall t, In t (elems theta) -> 0 <= t <= 180) -> used_degree D nmax N -> valid (o_sh F) idx ->
  in_interval x i (bread time idx) ->
  nu_of deriv = 0%nat \/ bread time idx <> last_break x \/ (forall t, In t (elems time) -> ~ outside x t) ->
  let B comp day := piece_field oob a s x K c comp N i (bread radius idx) (bread theta idx) (bread phi idx) day in
  exists vr vt vp,
    o_r F idx = Some vr /\ is_derive_n (fun year => B f_r (365.25 * year)) (nu_of deriv) (bread time idx / 365.25) vr /\
    o_t F idx = Some vt /\ is_derive_n (fun year => B f_t (365.25 * year)) (nu_of deriv) (bread time idx / 365.25) vt /\
    o_p F idx = Some vp /\ is_derive_n (fun year => B f_p (365.25 * year)) (nu_of deriv) (bread time idx / 365.25) vp.
Proof. intros oob a s x K D c time radius theta phi nmax deriv e F idx i N G HK. apply (model_field oob a s x K D c G HK). Qed.

Theorem C78_without_extrapolation_nan_exactly_outside : forall oob a s x K D c time radius theta phi nmax deriv e F idx,
  good_breaks x -> (1 <= K)%nat ->
  e = XStr "off" \/ e = XBool false \/ (exists z, (z <= 0)%Z /\ e = XInt z) ->
  model_values oob a (degree_model x K D c (Some (src_name s))) time radius theta phi nmax deriv None e = Ok F -> valid (o_sh F) idx ->
  (o_r F idx = None <-> outside x (bread time idx)) /\ (o_t F idx = None <-> outside x (bread time idx)) /\ (o_p F idx = None <-> outside x (bread time idx)).
Proof. intros oob a s x K D c time radius theta phi nmax deriv e F idx G HK. apply (model_nan oob a s x K D c G HK). Qed.

Theorem C78_valid_input_succeeds : forall oob a s x K D c time radius theta phi nmax deriv e gsh,
  good_breaks x -> (1 <= K)%nat ->
  (3 <= D)%nat -> nmax <> Some 0%nat -> elems time <> [] -> (forall st, e = XStr st -> In st documented) ->
  elems theta <> [] -> (forall t, In t (elems theta) -> 0 <= t <= 180) ->
  broadcast [sh radius; sh theta; sh phi; sh time] = Ok gsh ->
  exists F, model_values oob a (degree_model x K D c (Some (src_name s))) time radius theta phi nmax deriv None e = Ok F /\ o_sh F = gsh.
Proof. intros oob a s x K D c time radius theta phi nmax deriv e gsh G HK. apply (model_values_ok oob a s x K D c G HK). Qed.

(** ** C79 *)
Theorem C79_synth_from_pp_is_the_model_without_extrapolation : forall oob a x K D c source time radius theta phi nmax deriv grid,
  good_breaks x -> (1 <= K)%nat -> elems time <> [] -> (3 <= D)%nat -> nmax <> Some 0%nat ->
  let A := synth_from_pp oob a x (Z.of_nat K) (mkc3 K (List.length x - 1) D c) time radius theta phi nmax source deriv grid in
  let B := model_values oob a (model_init (Some x) (Some (Z.of_nat K)) (Some (mkc3 K (List.length x - 1) D c)) source) time radius theta phi nmax deriv grid (XStr "off") in
  (forall F, A = Ok F -> exists F', B = Ok F' /\ o_sh F' = o_sh F /\
     forall i, valid (o_sh F) i -> o_r F' i = o_r F i /\ o_t F' i = o_t F i /\ o_p F' i = o_p F i) /\
  (forall F', B = Ok F' -> exists F, A = Ok F).
Proof. intros oob a x K D c source time radius theta phi nmax deriv grid G HK. apply (pp_is_model oob a source x K D c G HK). Qed.

(** ** C46: the breaks are not reproduced *)
(** Breaks 0 and 366: the imported model ends at day 0. *)
Theorem C46_last_break_refuted : forall lsq, exists now fs name x c tq cq path fs' text M' y,
  good_breaks x /\ exported (degree_model x 1 3 c None) tq cq /\
  to_shc now fs name (degree_model x 1 3 c None) tq cq path None None None None = (fs', Ok tt) /\
  fs' path = Some text /\ from_shc lsq text None None = Ok M' /\ b_breaks (m_base M') = Some y /\
  365 < Rabs (last_break y - last_break x).
Proof.
  intros lsq. destruct (w_lost lsq) as (fs' & text & M' & y & H).
  exists (txt "now"), (fun _ => None), (txt "m"), w_x, (fun _ i j => Q2R (w_c i j)), [0]%Q, w_coefs, "f.shc"%string, fs', text, M', y.
  split; [exact w_good|]. split; [exact w_exported|exact H].
Qed.

(** Everything else is: for every export to a file and import with the same
    time convention, the coefficients of every piece (degrees a to b, lower
    ones zero) to 0.5e-8 and all breaks but the last to 2e-6 days. *)
Theorem C46_coefficients_and_other_breaks_partial : forall now fs name x D c source tq cq path lp nmin nmax header a b source' lsq,
  let M := degree_model x 1 D c source in
  good_breaks x -> exported M tq cq ->
  first_degree nmin a -> last_degree D nmax b -> (1 <= a <= b)%nat -> (b * (b + 2) <= D)%nat ->
  (match header with None => ~ In "010"%char name | Some h => comment_lines h end) -> ~ In "010"%char now ->
  (lp = Some true -> forall i, (i + 1 < List.length x)%nat -> -106650 <= nth i x 0 < 107016) ->
  exists fs' text M' y c',
    to_shc now fs name M tq cq path lp nmin nmax header = (fs', Ok tt) /\ fs' path = Some text /\
    from_shc lsq text lp source' = Ok M' /\
    M' = model_init (Some y) (Some 1%Z) (Some (mkc3 1 (List.length x - 1) (b * (b + 2)) c')) source' /\
    List.length y = List.length x /\
    (forall i, (i + 1 < List.length x)%nat -> Rabs (nth i y 0 - nth i x 0) <= 2 / 1000000) /\
    nth (List.length x - 1) y 0 = nth (List.length x - 2) y 0 /\
    forall i j, (i + 1 < List.length x)%nat -> (j < b * (b + 2))%nat ->
      ((j < a * a - 1)%nat -> c' 0%nat i j = 0) /\
      ((a * a - 1 <= j)%nat -> Rabs (c' 0%nat i j - c 0%nat i j) <= 1 / 200000000).
Proof. exact const_round_trip. Qed.

(** ** C77 *)
(** Order K >= 2: K samples per interval, evenly spaced, every (K-1)-th one at a
    break; each sample is the value of the model. *)
Theorem C77_exported_samples : forall x K D c source, good_breaks x -> (2 <= K)%nat -> (3 <= D)%nat ->
  exists times r, to_shc_data (degree_model x K D c source) = Ok (times, r) /\
  List.length times = ((List.length x - 1) * (K - 1) + 1)%nat /\
  (forall p i, (p + 1 < List.length x)%nat -> (i < K)%nat ->
     nth (p * (K - 1) + i) times 0 = nth p x 0 + INR i * ((nth (p + 1) x 0 - nth p x 0) / INR (K - 1))) /\
  (s_dim r <= D)%nat /\
  forall i p d, (i < List.length times)%nat -> (d < s_dim r)%nat -> in_interval x p (nth i times 0) ->
    s_at r [i] d = Some (piece x K c p d (nth i times 0)).
Proof. intros x K D c source G HK HD. exact (samples x K D c source G HK HD). Qed.

(** A continuous piecewise polynomial of the same order and breaks through the
    samples is the model. *)
Theorem C77_samples_determine_the_model : forall x K D c source times r d c',
  good_breaks x -> (2 <= K)%nat -> (3 <= D)%nat ->
  to_shc_data (degree_model x K D c source) = Ok (times, r) -> (d < s_dim r)%nat ->
  continuous_at_breaks x K c d -> continuous_at_breaks x K c' d ->
  (forall i p, (i < List.length times)%nat -> in_interval x p (nth i times 0) -> Some (piece x K c' p d (nth i times 0)) = s_at r [i] d) ->
  forall p t, in_interval x p t -> piece x K c' p d t = piece x K c p d t.
Proof. intros x K D c source times r d c' G HK HD. apply (samples_determine x K D c source G HK HD). Qed.

(** ** Concrete cases *)
Example C75_C79_good_breaks : good_breaks [0; 1; 3].
Proof. split; [cbn; lia|]. intros [|[|i]] Hi; cbn in *; lra || lia. Qed.
Example C75_C76_knots : augment_breaks [0; 1; 3] 4 = Ok [0; 0; 0; 0; 1; 3; 3; 3; 3].
Proof. reflexivity. Qed.
Example C75_C78_interval : in_interval [0; 1; 3] 1 3.
Proof. split; [cbn; lia|]. cbn. split; [lra|]. right. split; [lia|lra]. Qed.
Example C78_used_degree : used_degree 8 (Some 5%nat) 2.
Proof. exists 2%nat. repeat split; lia. Qed.
Example C77_continuous : continuous_at_breaks [0; 1; 3] 2 (fun j i d => match j, i with 0%nat, 0%nat => 2 | 0%nat, _ => 5 | _, 0%nat => 1 | _, _ => 3 end) 0.
Proof. intros [|i] Hi; [|cbn in Hi; lia]. cbn. ring. Qed.
Example C46_applies : good_breaks w_x /\ exported w_model [0]%Q w_coefs.
Proof. split; [exact w_good|exact w_exported]. Qed.

(** A model of degree 2, order 4, evaluated for three times (one of them
    outside) at a point; and its design at two times. *)
Example C78_C79_apply : exists F, model_values 0 6371.2 (degree_model [0; 1; 3] 4 8 (fun j i d => INR (j + i + d)) (Some (src_name Internal)))
    (vec 0 [0.5; 3; 7]) (scalar 6400) (scalar 30) (scalar 20) None (Some 1%nat) None (XStr "linear") = Ok F /\ o_sh F = [3%nat].
Proof.
  apply C78_valid_input_succeeds; [exact C75_C79_good_breaks|lia|lia|discriminate|discriminate| |discriminate| |reflexivity].
  - intros st E. injection E as <-. cbn. tauto.
  - intros t Ht. change (elems (scalar 30)) with [30] in Ht. destruct Ht as [<- |[]]. lra.
Qed.
Example C75_applies : exists M, colloc_matrix [0.5; 2] [0; 0; 0; 0; 1; 3; 3; 3; 3] 4 (Some 1%nat) = Ok M /\ in_interval [0; 1; 3] 1 2.
Proof.
  destruct (P_Spline.C74_ok [0; 1; 3] 4 [0; 0; 0; 0; 1; 3; 3; 3; 3] [0.5; 2] (Some 1%nat)) as (M & E); [cbn; lia|lia|discriminate|reflexivity|].
  exists M. split; [exact E|]. split; [cbn; lia|]. cbn. lra.
Qed.

Print Assumptions C75_collocation_entries_are_bsplines.
Print Assumptions C75_derivative_entries.
Print Assumptions C76_piecewise_polynomial_is_the_spline.
Print Assumptions C76_model_from_spline_evaluates_the_spline.
Print Assumptions C76_repeated_inner_knots_refuted.
Print Assumptions C78_field_and_derivatives_inside_the_period.
Print Assumptions C78_without_extrapolation_nan_exactly_outside.
Print Assumptions C78_valid_input_succeeds.
Print Assumptions C79_synth_from_pp_is_the_model_without_extrapolation.
Print Assumptions C46_last_break_refuted.
Print Assumptions C46_coefficients_and_other_breaks_partial.
Print Assumptions C77_exported_samples.
Print Assumptions C77_samples_determine_the_model.
