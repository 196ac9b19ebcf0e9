(** Theorems about importing SHC files of order two and more (C93) and about
    the round trip through such files (C94).

    [from_shc lsq] is the import with SciPy's least-squares spline fit [lsq];
    [least_squares lsq] (Spec_Lsq) says that it returns the coefficients with
    the least misfit when the data determine them.  [takes_values]: the model's
    coefficients as functions of time (Spec_Loaders). *)
From Coq Require Import Reals QArith Qreals List Arith ZArith String Ascii Bool Lia Lra.
From Coquelicot Require Import Coquelicot.
From Verif Require Import M_Prelude M_ND Spec_Field Spec_PP Spec_Spline Spec_Smooth M_Spectrum M_PP M_Model M_FromSpline M_Time M_Text M_SHC M_SHCModel Spec_SHC Spec_Lsq Spec_Loaders
  P_Time2 P_SHCModel P_Lsq P_SHCImport P_SHCImport2 P_SHCImport3 P_SHCImport4 P_SHCImport5 W_SHCImport.
Import ListNotations.
Open Scope R_scope.

Local Notation degree_model x K D c source := (model_init (Some x) None (Some (mkc3 K (List.length x - 1) D c)) source).

(** ** C93: reading *)
(** A file whose rows sample splines of the file's order with breaks at every
    step-th time yields these splines, over the whole period up to the last
    break; samples later than the last break are ignored, and the degrees below
    the file's first degree are zero. *)
Theorem C93_samples_of_splines : forall lsq content lp source s nmin nmax N K step more a b (f : nat -> nat -> R) knots,
  least_squares lsq -> load_shcfile content (Some (leap_flag lp)) None = Ok s ->
  l_params s = nmin :: nmax :: N :: Z.of_nat K :: step :: more -> nmin = Z.of_nat a -> nmax = Z.of_nat b -> (1 <= a <= b)%nat ->
  List.length (l_rows s) = ((b + 1) * (b + 1) - a * a)%nat ->
  (2 <= K)%nat -> (Z.of_nat K - 1 <= step)%Z -> (step < Z.of_nat (List.length (l_time s)))%Z -> rising (map Q2R (l_time s)) ->
  let breaks := every_step (map Q2R (l_time s)) (Z.to_nat step) in
  let first := (a * a - 1)%nat in
  augment_breaks breaks (Z.of_nat K) = Ok knots ->
  (forall j i, (j < List.length (l_rows s))%nat -> (i < List.length (l_time s))%nat -> Q2R (nth i (l_time s) 0%Q) <= last_break breaks ->
     Q2R (nth i (nth j (l_rows s) []) 0%Q) = spline knots (K - 1) (f j) (List.length knots - K) (Q2R (nth i (l_time s) 0%Q))) ->
  exists M, from_shc lsq content lp source = Ok M /\
    m_nmax M = Some (Z.of_nat b) /\ m_source M = (match source with None => "internal"%string | Some s => s end) /\ b_breaks (m_base M) = Some breaks /\
    takes_values M (b * (b + 2)) (first_break breaks) (last_break breaks) (fun d t =>
      if (d <? first)%nat then 0 else spline knots (K - 1) (f (d - first)%nat) (List.length knots - K) t).
Proof. exact import_spline. Qed.

(** The sites determine the spline: with at least K - 1 steps per piece, only
    the zero spline vanishes at all of them. *)
Theorem C93_sites_determine_the_spline : forall time step K knots, rising time -> (1 <= step)%nat -> (step < List.length time)%nat ->
  (2 <= K)%nat -> (K - 1 <= step)%nat -> augment_breaks (every_step time step) (Z.of_nat K) = Ok knots ->
  determined (firstn ((List.length time - 1) / step * step + 1) time) knots (K - 1).
Proof. intros time step K knots H1 H2 H3 H4 H5 H6. exact (sites_determine time step H1 H2 H3 K knots H4 H5 H6). Qed.

(** Order 2, step 1: linear interpolation of the tabulated values. *)
Theorem C93_order_two_is_linear_interpolation : forall lsq content lp source s nmin nmax N more a b,
  least_squares lsq -> load_shcfile content (Some (leap_flag lp)) None = Ok s ->
  l_params s = nmin :: nmax :: N :: 2%Z :: 1%Z :: more -> nmin = Z.of_nat a -> nmax = Z.of_nat b -> (1 <= a <= b)%nat ->
  List.length (l_rows s) = ((b + 1) * (b + 1) - a * a)%nat ->
  (2 <= List.length (l_time s))%nat -> rising (map Q2R (l_time s)) ->
  let y := map Q2R (l_time s) in
  let value d i := if (d <? a * a - 1)%nat then 0 else Q2R (nth i (nth (d - (a * a - 1)) (l_rows s) []) 0%Q) in
  exists M f, from_shc lsq content lp source = Ok M /\
    m_nmax M = Some (Z.of_nat b) /\ m_source M = (match source with None => "internal"%string | Some s => s end) /\ b_breaks (m_base M) = Some y /\
    takes_values M (b * (b + 2)) (first_break y) (last_break y) f /\
    forall p d t, (d < b * (b + 2))%nat -> in_interval y p t -> f d t = linear (nth p y 0) (value d p) (nth (p + 1) y 0) (value d (p + 1)%nat) t.
Proof. exact import_linear. Qed.

(** Any file of order two and more: every coefficient becomes the spline with
    the least sum of squared differences to the tabulated values (up to the
    last break); the degrees below the file's first degree count as zero. *)
Theorem C93_least_squares_fit : forall lsq content lp source s nmin nmax N K step more a b knots,
  least_squares lsq -> load_shcfile content (Some (leap_flag lp)) None = Ok s ->
  l_params s = nmin :: nmax :: N :: Z.of_nat K :: step :: more -> nmin = Z.of_nat a -> nmax = Z.of_nat b -> (1 <= a <= b)%nat ->
  List.length (l_rows s) = ((b + 1) * (b + 1) - a * a)%nat ->
  (2 <= K)%nat -> (Z.of_nat K - 1 <= step)%Z -> (step < Z.of_nat (List.length (l_time s)))%Z -> rising (map Q2R (l_time s)) ->
  let breaks := every_step (map Q2R (l_time s)) (Z.to_nat step) in
  let first := (a * a - 1)%nat in
  augment_breaks breaks (Z.of_nat K) = Ok knots ->
  exists M C, from_shc lsq content lp source = Ok M /\
    m_nmax M = Some (Z.of_nat b) /\ m_source M = (match source with None => "internal"%string | Some s => s end) /\ b_breaks (m_base M) = Some breaks /\
    takes_values M (b * (b + 2)) (first_break breaks) (last_break breaks) (fun d t => spline knots (K - 1) (C d) (List.length knots - K) t) /\
    forall d, (d < b * (b + 2))%nat -> forall c',
      let sites := firstn ((List.length (map Q2R (l_time s)) - 1) / Z.to_nat step * Z.to_nat step + 1) (map Q2R (l_time s)) in
      let y := fun i => if (d <? first)%nat then 0 else Q2R (nth i (nth (d - first)%nat (l_rows s) []) 0%Q) in
      misfit sites y knots (K - 1) (C d) <= misfit sites y knots (K - 1) c'.
Proof. exact import_fit. Qed.

(** ** C94: round trip *)
(** A model of order K >= 2 with K - 2 continuous derivatives whose sampled
    times (in decimal years) and values have at most eight decimals. *)
Theorem C94_smooth_models : forall now fs name x K D c source tq cq path lp nmin nmax header a b source' lsq,
  let M := degree_model x K D c source in
  least_squares lsq -> good_breaks x -> (2 <= K)%nat -> exported M tq cq ->
  first_degree nmin a -> last_degree D nmax b -> (1 <= a <= b)%nat -> (b * (b + 2) <= D)%nat ->
  (match header with None => ~ In "010"%char name | Some h => comment_lines h end) -> ~ In "010"%char now ->
  (forall d, (d < b * (b + 2))%nat -> smooth_at_breaks x K c d) ->
  (lp = Some true -> forall t, In t tq -> mjd_ok t) ->
  (forall t, In t tq -> exists y, mjd_to_dyear t (Some (leap_flag lp)) = Ok y /\ exact8 y) ->
  (forall i j, (i < List.length tq)%nat -> (j < b * (b + 2))%nat -> exact8 (c_at cq i j)) ->
  exists fs' text M' f,
    to_shc now fs name M tq cq path lp nmin nmax header = (fs', Ok tt) /\ fs' path = Some text /\
    from_shc lsq text lp source' = Ok M' /\
    m_nmax M' = Some (Z.of_nat b) /\ m_source M' = (match source' with None => "internal"%string | Some s => s end) /\ b_breaks (m_base M') = Some x /\ b_order (m_base M') = Some (Z.of_nat K) /\
    takes_values M' (b * (b + 2)) (first_break x) (last_break x) f /\
    forall p d t, (d < b * (b + 2))%nat -> in_interval x p t -> f d t = if (d <? a * a - 1)%nat then 0 else piece x K c p d t.
Proof. exact smooth_round_trip. Qed.

(** The same with values of any number of decimals: with N sampled times, the
    imported model deviates by at most sqrt N / 2 times 1e-8 at these times and
    by (2 K - 1)^(K - 1) times as much in between. *)
Theorem C94_smooth_models_with_rounded_values : forall now fs name x K D c source tq cq path lp nmin nmax header a b source' lsq,
  let M := degree_model x K D c source in
  let N := ((List.length x - 1) * (K - 1) + 1)%nat in
  least_squares lsq -> good_breaks x -> (2 <= K)%nat -> exported M tq cq ->
  first_degree nmin a -> last_degree D nmax b -> (1 <= a <= b)%nat -> (b * (b + 2) <= D)%nat ->
  (match header with None => ~ In "010"%char name | Some h => comment_lines h end) -> ~ In "010"%char now ->
  (forall d, (d < b * (b + 2))%nat -> smooth_at_breaks x K c d) ->
  (lp = Some true -> forall t, In t tq -> mjd_ok t) ->
  (forall t, In t tq -> exists y, mjd_to_dyear t (Some (leap_flag lp)) = Ok y /\ exact8 y) ->
  exists fs' text M' f,
    to_shc now fs name M tq cq path lp nmin nmax header = (fs', Ok tt) /\ fs' path = Some text /\
    from_shc lsq text lp source' = Ok M' /\
    m_nmax M' = Some (Z.of_nat b) /\ m_source M' = (match source' with None => "internal"%string | Some s => s end) /\ b_breaks (m_base M') = Some x /\ b_order (m_base M') = Some (Z.of_nat K) /\
    takes_values M' (b * (b + 2)) (first_break x) (last_break x) f /\
    (forall p d t, (d < a * a - 1)%nat -> in_interval x p t -> f d t = 0) /\
    (forall p d t, (a * a - 1 <= d < b * (b + 2))%nat -> in_interval x p t -> In t (map Q2R tq) ->
       Rabs (f d t - piece x K c p d t) <= sqrt (INR N) / 200000000) /\
    forall p d t, (a * a - 1 <= d < b * (b + 2))%nat -> in_interval x p t ->
      Rabs (f d t - piece x K c p d t) <= (2 * INR K - 1) ^ (K - 1) * sqrt (INR N) / 200000000.
Proof. exact rounded_round_trip. Qed.

(** Order two, without exactness: the imported breaks are within 2e-6 days and
    the values at the breaks within half of 1e-8 of the original ones; linear
    in between.  The breaks must be at least 5e-6 days apart. *)
Theorem C94_order_two_with_rounding : forall now fs name x D c source tq cq path lp nmin nmax header a b source' lsq,
  let M := degree_model x 2 D c source in
  least_squares lsq -> good_breaks x -> exported M tq cq ->
  first_degree nmin a -> last_degree D nmax b -> (1 <= a <= b)%nat -> (b * (b + 2) <= D)%nat ->
  (match header with None => ~ In "010"%char name | Some h => comment_lines h end) -> ~ In "010"%char now ->
  (forall i, (i + 1 < List.length x)%nat -> nth i x 0 + 5 / 1000000 <= nth (i + 1) x 0) ->
  (lp = Some true -> forall i, (i < List.length x)%nat -> -106650 <= nth i x 0 < 107016) ->
  exists fs' text M' y v f,
    to_shc now fs name M tq cq path lp nmin nmax header = (fs', Ok tt) /\ fs' path = Some text /\
    from_shc lsq text lp source' = Ok M' /\
    m_nmax M' = Some (Z.of_nat b) /\ m_source M' = (match source' with None => "internal"%string | Some s => s end) /\ b_breaks (m_base M') = Some y /\
    List.length y = List.length x /\ good_breaks y /\
    (forall i, (i < List.length x)%nat -> Rabs (nth i y 0 - nth i x 0) <= 2 / 1000000) /\
    takes_values M' (b * (b + 2)) (first_break y) (last_break y) f /\
    (forall p d t, (d < b * (b + 2))%nat -> in_interval y p t -> f d t = linear (nth p y 0) (v d p) (nth (p + 1) y 0) (v d (p + 1)%nat) t) /\
    forall d i p, (d < b * (b + 2))%nat -> (i < List.length x)%nat -> in_interval x p (nth i x 0) ->
      ((d < a * a - 1)%nat -> v d i = 0) /\ ((a * a - 1 <= d)%nat -> Rabs (v d i - piece x 2 c p d (nth i x 0)) <= 1 / 200000000).
Proof. exact linear_round_trip. Qed.

(** A model with fewer continuous derivatives is not reproduced, whatever the
    fit returns: order 3, |t/1461 - 1| on 0 <= t <= 2922. *)
Theorem C94_kinks_are_lost_refuted : forall lsq, exists now fs name x c tq cq path fs' text,
  good_breaks x /\ (forall d, continuous_at_breaks x 3 c d) /\ exported (degree_model x 3 3 c None) tq cq /\
  to_shc now fs name (degree_model x 3 3 c None) tq cq path None None None None = (fs', Ok tt) /\ fs' path = Some text /\
  forall M', from_shc lsq text None None = Ok M' ->
    exists f p t, takes_values M' 3 (first_break x) (last_break x) f /\ in_interval x p t /\ f 0%nat t <> piece x 3 c p 0 t.
Proof.
  intros lsq. destruct (w3_not_reproduced lsq) as (fs' & text & H).
  exists (txt "now"), (fun _ => None), (txt "m"), w3_x, w3_k, w3_t, (mkcoefs false 5 3 w3_kv), "f.shc"%string, fs', text.
  split; [exact w3_good|]. split; [exact w3_kink_continuous|]. split; [exact w3_kink_exported|exact H].
Qed.

(** ** Concrete cases *)
(** The contract for the fit can be met. *)
Example C93_fit_exists : least_squares gram_schmidt.
Proof. exact gram_schmidt_solves. Qed.
(** A file with five times, order 3 and step 2 *)
Example C93_hypotheses : exists content s knots,
  load_shcfile content (Some (leap_flag None)) None = Ok s /\ l_params s = [1; 1; 5; 3; 2]%Z /\ List.length (l_rows s) = 3%nat /\
  rising (map Q2R (l_time s)) /\ every_step (map Q2R (l_time s)) 2 = w3_x /\ augment_breaks w3_x 3 = Ok knots /\
  exists f : nat -> nat -> R, forall j i, (j < 3)%nat -> (i < List.length (l_time s))%nat ->
     Q2R (nth i (nth j (l_rows s) []) 0%Q) = spline knots 2 (f j) (List.length knots - 3) (Q2R (nth i (l_time s) 0%Q)).
Proof. exact w3_file. Qed.
Example C94_hypotheses : exported (degree_model w3_x 3 3 w3_c None) w3_t (mkcoefs false 5 3 w3_v) /\ (forall d, smooth_at_breaks w3_x 3 w3_c d) /\
  (forall t, In t w3_t -> exists y, mjd_to_dyear t (Some (leap_flag None)) = Ok y /\ exact8 y) /\
  (forall i j, (i < 5)%nat -> (j < 3)%nat -> exact8 (w3_v i j)) /\ w3_c 0%nat 0%nat 0%nat <> w3_c 0%nat 1%nat 0%nat.
Proof. split; [exact w3_exported|]. split; [exact w3_smooth|]. split; [exact w3_years|]. split; [exact w3_values|]. cbn. lra. Qed.
Example C94_order_two_hypotheses : exported (degree_model w3_x 2 3 w2_c None) [0; 1461; 2922]%Q (mkcoefs false 3 3 w2_v) /\ good_breaks w3_x /\
  (forall i, (i + 1 < List.length w3_x)%nat -> nth i w3_x 0 + 5 / 1000000 <= nth (i + 1) w3_x 0).
Proof. split; [exact w2_exported|]. split; [exact w3_good|]. intros [|[|i]] Hi; cbn in *; try lia; lra. Qed.

Print Assumptions C93_samples_of_splines.
Print Assumptions C93_sites_determine_the_spline.
Print Assumptions C93_order_two_is_linear_interpolation.
Print Assumptions C94_smooth_models.
Print Assumptions C94_smooth_models_with_rounded_values.
Print Assumptions C93_least_squares_fit.
Print Assumptions C94_order_two_with_rounding.
Print Assumptions C94_kinks_are_lost_refuted.
