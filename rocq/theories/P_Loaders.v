(** Spline files: shift and scaling of B-splines; the loaders. *)
From Coq Require Import Reals QArith Qreals List Arith ZArith String Ascii Bool Lia Lra.
From Verif Require Import M_Prelude M_Time M_ND M_Text M_SHC Spec_Field Spec_Spline Spec_PP Spec_Loaders M_Spectrum M_Spline M_PP M_Model M_FromSpline M_Loaders
  P_Text P_SHC P_SHC2 P_Spectrum P_Spectrum2 P_Spectrum3 P_Spline P_Spline2 P_Spline3 P_Spline4 P_PP P_PP2.
Import ListNotations.
Open Scope R_scope.

(** ** B-splines under a change of the knots *)
Lemma ratio_scale a p q : a <> 0 -> ratio (a * p) (a * q) = ratio p q.
Proof.
  intros Ha. unfold ratio. destruct (Req_EM_T q 0) as [ -> |N].
  - destruct (Req_EM_T (a * 0) 0) as [_|C]; [reflexivity|]. exfalso. apply C. ring.
  - destruct (Req_EM_T (a * q) 0) as [C|_]; [|field; split; assumption]. apply Rmult_integral in C. tauto.
Qed.

Section Shift.
(** u_(o + i) = a t_i + c with a > 0 *)
Variables (t u : list R) (o : nat) (a c : R).
Hypothesis Ha : 0 < a.
Hypothesis U : forall i, (i < List.length t)%nat -> nth (o + i) u 0 = a * nth i t 0 + c.
Hypothesis L : last u 0 = a * last t 0 + c.

Lemma affine_lt (x y : R) : a * x + c < a * y + c <-> x < y.
Proof. split; intros H; nra. Qed.
Lemma affine_le (x y : R) : a * x + c <= a * y + c <-> x <= y.
Proof. split; intros H; nra. Qed.
Lemma affine_eq (x y : R) : a * x + c = a * y + c <-> x = y.
Proof. split; intros H; [nra|subst; reflexivity]. Qed.

Lemma indicator_affine i x : (i + 1 < List.length t)%nat -> indicator u (o + i) (a * x + c) = indicator t i x.
Proof.
  intros Hi. unfold indicator. rewrite <- Nat.add_assoc, !U, L by lia.
  destruct (Rle_dec (a * nth i t 0 + c) (a * x + c)) as [H1|H1]; rewrite affine_le in H1; (destruct (Rle_dec (nth i t 0) x); [|try contradiction; reflexivity]; try contradiction).
  destruct (Rlt_dec (a * x + c) (a * nth (i + 1) t 0 + c)) as [H2|H2]; rewrite affine_lt in H2; (destruct (Rlt_dec x (nth (i + 1) t 0)); try contradiction); [reflexivity|].
  destruct (Rlt_dec (a * nth i t 0 + c) (a * nth (i + 1) t 0 + c)) as [H3|H3]; rewrite affine_lt in H3; (destruct (Rlt_dec (nth i t 0) (nth (i + 1) t 0)); try contradiction); [|reflexivity].
  destruct (Req_EM_T (a * nth (i + 1) t 0 + c) (a * last t 0 + c)) as [H4|H4]; rewrite affine_eq in H4; (destruct (Req_EM_T (nth (i + 1) t 0) (last t 0)); try contradiction); [|reflexivity].
  destruct (Req_EM_T (a * x + c) (a * last t 0 + c)) as [H5|H5]; rewrite affine_eq in H5; (destruct (Req_EM_T x (last t 0)); try contradiction); reflexivity.
Qed.
Lemma bspline_affine x k : forall i, (i + k + 1 < List.length t)%nat -> bspline u k (o + i) (a * x + c) = bspline t k i x.
Proof.
  induction k as [|k IH]; intros i Hi; cbn [bspline].
  - apply indicator_affine. lia.
  - rewrite (IH i) by lia. replace (o + i + 1)%nat with (o + (i + 1))%nat by lia. rewrite (IH (i + 1)%nat) by lia.
    replace (o + i + k + 1)%nat with (o + (i + k + 1))%nat by lia. replace (o + i + k + 2)%nat with (o + (i + k + 2))%nat by lia.
    rewrite !U by lia.
    replace (a * x + c - (a * nth i t 0 + c)) with (a * (x - nth i t 0)) by ring.
    replace (a * nth (i + k + 1) t 0 + c - (a * nth i t 0 + c)) with (a * (nth (i + k + 1) t 0 - nth i t 0)) by ring.
    replace (a * nth (i + k + 2) t 0 + c - (a * x + c)) with (a * (nth (i + k + 2) t 0 - x)) by ring.
    replace (a * nth (i + k + 2) t 0 + c - (a * nth (i + 1) t 0 + c)) with (a * (nth (i + k + 2) t 0 - nth (i + 1) t 0)) by ring.
    rewrite !ratio_scale by lra. reflexivity.
Qed.
End Shift.

(** a spline with zero coefficients except for m in the middle *)
Lemma spline_middle t k n o m (c c' : nat -> R) x :
  (o + m <= n)%nat -> (forall i, (i < n)%nat -> ~ (o <= i < o + m)%nat -> c i = 0) -> (forall i, (i < m)%nat -> c (o + i)%nat = c' i) ->
  spline t k c n x = Rsum (map (fun i => c' i * bspline t k (o + i) x) (seq 0 m)).
Proof.
  intros Hn Z E. unfold spline. change (fold_right Rplus 0 ?l) with (Rsum l).
  replace n with (o + (m + (n - o - m)))%nat by lia. rewrite !seq_app, !map_app, !Rsum_app. cbn [Nat.add].
  rewrite (Rsum_seq_ext _ (fun _ => 0) o), Rsum_const0.
  2:{ intros i Hi. rewrite Z by lia. ring. }
  rewrite (Rsum_shift _ (o + m)), (Rsum_seq_ext _ (fun _ => 0) (n - o - m)), Rsum_const0.
  2:{ intros i Hi. rewrite Z by lia. ring. }
  rewrite (Rsum_shift _ o). rewrite Rplus_0_l, Rplus_0_r. apply Rsum_seq_ext. intros i Hi. rewrite E by exact Hi. reflexivity.
Qed.

(** ** Years and days *)
Definition mjdq (y : Q) : Q := ((y - 2000) * (36525 # 100))%Q.
Lemma mjdq_days y : Q2R (mjdq y) = days (Q2R y).
Proof. unfold mjdq, days. rewrite Q2R_mult, Q2R_minus. unfold Q2R at 2 3. cbn. lra. Qed.
Lemma mapM_mjdq l : mapM (fun y => dyear_to_mjd y (Some false)) l = Ok (map mjdq l).
Proof. induction l as [|y l IH]; [reflexivity|]. cbn [mapM]. rewrite IH. reflexivity. Qed.
Definition day_breaks (years : list Q) : list R := map Q2R (map mjdq years).
Lemma day_breaks_nth years i : (i < List.length years)%nat -> nth i (day_breaks years) 0 = days (nth i (map Q2R years) 0).
Proof.
  intros H. unfold day_breaks. rewrite map_map. rewrite (nth_indep _ 0 (Q2R (mjdq 0))) by (rewrite map_length; exact H).
  rewrite (nth_indep (map Q2R years) 0 (Q2R 0)) by (rewrite map_length; exact H).
  rewrite (map_nth (fun y => Q2R (mjdq y))), map_nth. apply mjdq_days.
Qed.
Lemma day_breaks_length years : List.length (day_breaks years) = List.length years.
Proof. unfold day_breaks. rewrite !map_length. reflexivity. Qed.
Lemma Q2R_0 : Q2R 0 = 0.
Proof. unfold Q2R. cbn. lra. Qed.
Lemma Q2R_nth l i : Q2R (nth i l 0%Q) = nth i (map Q2R l) 0.
Proof. rewrite <- (map_nth Q2R). rewrite Q2R_0. reflexivity. Qed.
Lemma day_breaks_good years : increasing years -> (2 <= List.length years)%nat -> good_breaks (day_breaks years).
Proof.
  intros I L. split; [rewrite day_breaks_length; exact L|]. intros i Hi. rewrite day_breaks_length in Hi.
  rewrite !day_breaks_nth by lia. specialize (I i Hi). apply Qlt_Rlt in I. rewrite !Q2R_nth in I. unfold days. lra.
Qed.
Lemma last_nth (l : list R) : l <> [] -> last l 0 = nth (List.length l - 1) l 0.
Proof.
  induction l as [|y c IH]; intros Hc; [contradiction|]. destruct c as [|z c]; [reflexivity|].
  change (last (z :: c) 0 = nth (List.length (y :: z :: c) - 1) (y :: z :: c) 0). rewrite IH by discriminate. cbn. rewrite Nat.sub_0_r. reflexivity.
Qed.

(** the model of from_bspline on augmented breaks *)
Lemma model_spline b order t rows dim c source :
  good_breaks b -> (1 <= order)%nat -> (1 <= dim)%nat -> augment_breaks b (Z.of_nat order) = Ok t -> (List.length t - order <= rows)%nat ->
  exists M, from_bspline rows dim c t order source = Ok M /\
    m_nmax M = Some (degree_of_size dim) /\ m_source M = (match source with None => "internal"%string | Some s => s end) /\
    b_breaks (m_base M) = Some b /\
    takes_values M dim (first_break b) (last_break b) (fun d x => spline t (order - 1) (fun i => c i d) (List.length t - order) x).
Proof.
  intros G Ho Hd Ea Hr. destruct (pp_is_spline b order t G Ho Ea rows dim c Hr) as (C & E & S).
  unfold from_bspline. rewrite E. cbn [bind].
  assert (EB : m_base (model_init (Some b) (Some (Z.of_nat order)) (Some (mkc3 order (List.length b - 1) dim C)) source) =
          base_init (Some b) None (Some (mkc3 order (List.length b - 1) dim C))).
  { unfold model_init, base_init. cbn [m_base c_k]. rewrite Z.min_id. reflexivity. }
  eexists. split; [reflexivity|]. split; [reflexivity|]. split; [reflexivity|].
  split; [rewrite EB; unfold base_init; cbn [b_breaks]; destruct b as [|b0 [|b1 b']]; [reflexivity|destruct G as [G0 _]; cbn in G0; lia|reflexivity]|].
  intros time n HE. unfold model_coeffs. rewrite EB.
  destruct (C39_ok b order dim C time (option_map (fun n => (n * (n + 2))%nat) n) None XNone G Ho Hd HE) as (r & Er & S1 & S2); [intros s Es; discriminate|].
  exists r. split; [exact Er|]. split; [exact S1|]. split; [rewrite S2; destruct n; reflexivity|].
  intros idx d V Hdd Hx. destruct (in_interval_ex b _ G Hx) as [p I]. rewrite <- (S p d _ Hdd I).
  exact (C39 b order dim C time _ XNone r idx p d G Ho Hdd V Er I).
Qed.

Lemma degree_full n : degree_of_size (n * (n + 2)) = Z.of_nat n.
Proof.
  unfold degree_of_size. replace (Z.of_nat (n * (n + 2)) + 1)%Z with ((Z.of_nat n + 1) * (Z.of_nat n + 1))%Z by lia.
  rewrite Z.sqrt_square by lia. lia.
Qed.

Lemma reshape_ok len r dim : (0 <= r)%Z -> (r * dim = Z.of_nat len)%Z -> reshape_rows len r dim = Ok (Z.to_nat r).
Proof.
  intros H E. unfold reshape_rows. destruct (Z.eqb_spec r (-1)); [lia|]. destruct (Z.ltb_spec r 0); [lia|].
  destruct (Z.eqb_spec (r * dim) (Z.of_nat len)); [reflexivity|lia].
Qed.

Lemma spline_model_ok nmax order years data :
  (1 <= nmax)%nat -> (2 <= order)%nat -> increasing years -> (order <= List.length years)%nat ->
  List.length data = ((List.length years - order) * (nmax * (nmax + 2)))%nat ->
  exists M, spline_model (Z.of_nat nmax) (Z.of_nat order) years data = Ok M /\ is_spline_model M nmax order years data.
Proof.
  intros Hn Ho I L LD. set (b := day_breaks years). assert (LB : List.length b = List.length years) by apply day_breaks_length.
  assert (G : good_breaks b) by (apply day_breaks_good; [exact I|lia]).
  unfold spline_model. rewrite mapM_mjdq. cbn [bind]. fold (day_breaks years). fold b.
  destruct (augment_breaks b (Z.of_nat order)) as [t|e] eqn:Ea.
  2:{ exfalso. unfold augment_breaks in Ea. destruct b; [cbn in LB; lia|discriminate]. }
  cbn [bind]. destruct (Z.ltb_spec (Z.of_nat order) 1); [lia|]. rewrite map_length.
  pose proof (len_t b order t G ltac:(lia) Ea) as LT.
  set (dim := (nmax * (nmax + 2))%nat). replace (Z.of_nat nmax * (Z.of_nat nmax + 2))%Z with (Z.of_nat dim) by (unfold dim; lia).
  assert (HD : (1 <= dim)%nat) by (unfold dim; nia). fold dim in LD.
  unfold insert_rows. destruct (Z.ltb_spec (Z.of_nat (List.length t) - Z.of_nat order) 0); [lia|]. destruct (Z.ltb_spec (Z.of_nat dim) 0); [lia|]. cbn [orb].
  replace (Z.to_nat (Z.of_nat (List.length t) - Z.of_nat order)) with (List.length t - order)%nat by lia.
  replace (Z.to_nat (Z.of_nat order - 1)) with (order - 1)%nat by lia. destruct (Nat.eqb_spec (order - 1) 0); [lia|].
  rewrite reshape_ok by nia. cbn [bind]. replace (Z.to_nat (Z.of_nat (List.length years) - Z.of_nat order)) with (List.length years - order)%nat by lia.
  replace (List.length t - order - (order - 1) - (order - 1))%nat with (List.length years - order)%nat by lia.
  rewrite Nat.eqb_refl. cbn [orb negb bind]. rewrite !Nat2Z.id.
  set (m := (List.length years - order)%nat) in *. set (k := (order - 1)%nat) in *.
  match goal with |- exists M, from_bspline _ _ ?f _ _ _ = _ /\ _ => set (c := f) end.
  destruct (model_spline b order t (List.length t - order) dim c (Some "internal"%string) G ltac:(lia) HD Ea ltac:(lia)) as (M & EM & N1 & N2 & _ & TV).
  exists M. split; [exact EM|]. unfold is_spline_model. fold dim. fold m. fold k.
  split; [rewrite N1; f_equal; apply degree_full|]. split; [exact N2|].
  assert (NE : map Q2R years <> []) by (intros E0; apply (f_equal (@List.length R)) in E0; rewrite map_length in E0; cbn in E0; lia).
  assert (F1 : days (nth 0 (map Q2R years) 0) = first_break b) by (unfold first_break, b; rewrite day_breaks_nth by lia; reflexivity).
  assert (F2 : days (last (map Q2R years) 0) = last_break b).
  { unfold last_break. rewrite LB. unfold b. rewrite day_breaks_nth by lia. rewrite (last_nth _ NE), map_length. reflexivity. }
  rewrite F1, F2. intros time n0 HE. destruct (TV time n0 HE) as (r & Er & S1 & S2 & V). exists r. split; [exact Er|]. split; [exact S1|]. split; [exact S2|].
  intros idx d Vi Hd Hx. rewrite (V idx d Vi Hd Hx). f_equal. set (x := at_ time idx).
  rewrite (spline_middle t (order - 1) (List.length t - order) k m (fun i => c i d) (fun i => Q2R (nth (i * dim + d) data 0%Q)) x).
  - unfold spline. fold k. change (fold_right Rplus 0 ?l) with (Rsum l). apply Rsum_seq_ext. intros i Hi. f_equal.
    assert (EX : x = 365.25 * (x / 365.25 + 2000) + (- 2000 * 365.25)) by (replace 365.25 with (1461 / 4) by lra; field).
    rewrite EX at 1.
    apply (bspline_affine (map Q2R years) t k 365.25 (- 2000 * 365.25)); [lra| | |].
    + intros j Hj. rewrite map_length in Hj. pose proof (knot_b b order t G ltac:(lia) Ea j ltac:(lia)) as KB. unfold knot in KB. fold k in KB. rewrite KB.
      unfold b. rewrite day_breaks_nth by exact Hj. unfold days. ring.
    + rewrite (last_t b order t G ltac:(lia) Ea), <- F2. unfold days. ring.
    + rewrite map_length. lia.
  - lia.
  - intros i Hi Hout. unfold c. destruct (Nat.leb_spec k i); [|reflexivity]. destruct (Nat.ltb_spec i (k + m)); [exfalso; lia|]. reflexivity.
  - intros i Hi. unfold c. destruct (Nat.leb_spec k (k + i)); [|lia]. destruct (Nat.ltb_spec (k + i) (k + m)); [|lia]. cbn [andb].
    replace (k + i - k)%nat with i by lia. destruct (Nat.eqb_spec m 1); [|reflexivity]. replace i with 0%nat by lia. reflexivity.
Qed.
