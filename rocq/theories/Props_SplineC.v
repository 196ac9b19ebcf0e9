(** Theorems about the smoothness in time of models made from splines (C153).

    b are the break points, K the order and t the augmented knots; times in
    days, derivatives per year.  [spline] (Cox-de Boor) is in Spec_Spline,
    [smooth_at_breaks] in Spec_Smooth, [field_of oob a s f comp N r t p day]
    is the component comp of the field that synth_values computes at radius r,
    colatitude t, longitude p from the coefficients f d day. *)
From Coq Require Import Reals List Arith ZArith String Bool Lia Lra.
From Coquelicot Require Import Coquelicot.
From Verif Require P_Spline.
From Verif Require Import M_Prelude M_ND Spec_Field Spec_Spline Spec_PP Spec_Smooth M_SynthArr M_Spectrum M_Spline M_PP M_Model M_FromSpline
  P_PP P_Spline3 P_Spline4 P_Model P_SplineC P_SplineC2.
Import ListNotations.
Open Scope R_scope.

Ltac rdecs := repeat (match goal with
  | |- context [Rlt_dec ?u ?v] => destruct (Rlt_dec u v); [try (exfalso; lra)|try (exfalso; lra)]
  | |- context [Rle_dec ?u ?v] => destruct (Rle_dec u v); [try (exfalso; lra)|try (exfalso; lra)]
  | |- context [Req_EM_T ?u ?v] => destruct (Req_EM_T u v); [try (exfalso; lra)|try (exfalso; lra)]
  end; cbn).

Local Notation the_spline t K c d := (spline t (K - 1) (fun i => c i d) (List.length t - K)).

(** The pieces of pp.c join with all derivatives up to K - 2. *)
Theorem C153_pieces_join_smoothly : forall b K t rows dim c source,
  good_breaks b -> (2 <= K)%nat -> augment_breaks b (Z.of_nat K) = Ok t -> (List.length t - K <= rows)%nat ->
  exists C, from_bspline rows dim c t K source = Ok (model_init (Some b) (Some (Z.of_nat K)) (Some (mkc3 K (List.length b - 1) dim C)) source) /\
    forall d, (d < dim)%nat -> smooth_at_breaks b K C d.
Proof.
  intros b K t rows dim c source G HK Ea Hr. destruct (spline_model_smooth b K t rows dim c source G HK Ea Hr) as (C & E & S).
  exists C. split; [exact E|]. intros d Hd. exact (proj1 (S d Hd)).
Qed.

(** Coefficients: value and derivatives up to K - 2 at every time between the
    ends, break points included, are those of the spline, which has them and
    whose derivatives are continuous. *)
Theorem C153_coefficients_are_smooth : forall b K t rows dim c source,
  good_breaks b -> (2 <= K)%nat -> augment_breaks b (Z.of_nat K) = Ok t -> (List.length t - K <= rows)%nat ->
  exists M, from_bspline rows dim c t K source = Ok M /\
    forall d m y, (d < dim)%nat -> (m + 2 <= K)%nat -> first_break b < y < last_break b ->
      ex_derive_n (the_spline t K c d) m y /\ continuous (Derive_n (the_spline t K c d) m) y /\
      forall time nmax e r idx, model_coeffs M time nmax (Some m) e = Ok r -> valid (sh time) idx -> at_ time idx = y ->
        s_at r idx d = Some (365.25 ^ m * Derive_n (the_spline t K c d) m y).
Proof.
  intros b K t rows dim c source G HK Ea Hr. destruct (spline_model_smooth b K t rows dim c source G HK Ea Hr) as (C & E & S).
  eexists. split; [exact E|]. intros d m y Hd Hm Hy. destruct (S d Hd) as [S1 S2].
  destruct (smooth_model b K dim C d _ G ltac:(lia) Hd S1 S2 m y Hm Hy) as (X & Y & V). split; [exact X|]. split; [exact Y|].
  intros time nmax e r idx Er Hv Ey. unfold model_coeffs in Er.
  assert (EB : m_base (model_init (Some b) (Some (Z.of_nat K)) (Some (mkc3 K (List.length b - 1) dim C)) source) =
          base_init (Some b) None (Some (mkc3 K (List.length b - 1) dim C))).
  { unfold model_init, base_init. cbn [m_base c_k]. rewrite Z.min_id. reflexivity. }
  rewrite EB in Er. exact (V time _ e r idx Er Hv Ey).
Qed.

(** The field at fixed places. *)
Theorem C153_field_is_smooth : forall oob a s b K t rows dim c,
  good_breaks b -> (2 <= K)%nat -> augment_breaks b (Z.of_nat K) = Ok t -> (List.length t - K <= rows)%nat ->
  exists M, from_bspline rows dim c t K (Some (src_name s)) = Ok M /\
    forall time radius theta phi nmax m e F idx N day, (m + 2 <= K)%nat ->
      model_values oob a M time radius theta phi nmax (Some m) None e = Ok F ->
      (forall t, In t (elems theta) -> 0 <= t <= 180) -> used_degree dim nmax N -> valid (o_sh F) idx ->
      bread time idx = day -> first_break b < day < last_break b ->
      let B comp := field_of oob a s (fun d => the_spline t K c d) comp N (bread radius idx) (bread theta idx) (bread phi idx) in
      (forall comp, comp = f_r \/ comp = f_t \/ comp = f_p -> ex_derive_n (B comp) m day /\ continuous (Derive_n (B comp) m) day) /\
      o_r F idx = Some (365.25 ^ m * Derive_n (B f_r) m day) /\
      o_t F idx = Some (365.25 ^ m * Derive_n (B f_t) m day) /\
      o_p F idx = Some (365.25 ^ m * Derive_n (B f_p) m day).
Proof.
  intros oob a s b K t rows dim c G HK Ea Hr. destruct (spline_model_smooth b K t rows dim c (Some (src_name s)) G HK Ea Hr) as (C & E & S).
  eexists. split; [exact E|]. intros time radius theta phi nmax m e F idx N day Hm EM Ht HU V Ey Hd.
  assert (EB : model_init (Some b) (Some (Z.of_nat K)) (Some (mkc3 K (List.length b - 1) dim C)) (Some (src_name s)) =
          model_init (Some b) None (Some (mkc3 K (List.length b - 1) dim C)) (Some (src_name s))).
  { unfold model_init, base_init. cbn [m_base c_k]. rewrite Z.min_id. reflexivity. }
  rewrite EB in EM.
  exact (model_field_smooth oob a s b K dim C (fun d => the_spline t K c d) G HK (fun d Hd => proj1 (S d Hd)) (fun d Hd => proj2 (S d Hd))
           time radius theta phi nmax m e F idx N day Hm EM Ht HU V Ey Hd).
Qed.

(** The order K - 2 cannot be raised: break points 0, 1, 3, order 2,
    coefficients 0, 1, 0. *)
Theorem C153_smoothness_is_sharp : exists b t c,
  good_breaks b /\ augment_breaks b 2 = Ok t /\ first_break b < 1 < last_break b /\ ~ ex_derive (the_spline t 2%nat c 0%nat) 1.
Proof.
  exists [0; 1; 3], [0; 0; 1; 3; 3], (fun i _ => if Nat.eqb i 1 then 1 else 0).
  split. { split; [cbn; lia|]. intros i Hi. cbn in Hi. destruct i as [|[|i]]; cbn; try lra; lia. }
  split; [reflexivity|]. split; [cbn; lra|]. intros [l Hl]. apply is_derive_Reals in Hl.
  set (F := spline _ _ _ _) in Hl.
  assert (L : forall y, 0 <= y < 1 -> F y = y).
  { intros y Hy. unfold F, spline. cbn. unfold ratio, indicator. cbn.
    rdecs; field. }
  assert (U : forall y, 1 <= y < 3 -> F y = (3 - y) / 2).
  { intros y Hy. unfold F, spline. cbn. unfold ratio, indicator. cbn.
    rdecs; field. }
  destruct (Hl (1/4) ltac:(lra)) as [d Hd]. pose proof (cond_pos d) as D0.
  set (h := Rmin (d / 2) (1/2)). assert (H0 : 0 < h) by (apply Rmin_glb_lt; lra). assert (H1 : h <= d / 2) by apply Rmin_l. assert (H2 : h <= 1/2) by apply Rmin_r.
  pose proof (Hd h ltac:(lra) ltac:(rewrite Rabs_right; lra)) as A. pose proof (Hd (- h) ltac:(lra) ltac:(rewrite Rabs_Ropp, Rabs_right; lra)) as B.
  rewrite (U (1 + h)), (U 1) in A by lra. rewrite (L (1 + - h)), (U 1) in B by lra.
  replace (((3 - (1 + h)) / 2 - (3 - 1) / 2) / h) with (- (1/2)) in A by (field; lra).
  replace ((1 + - h - (3 - 1) / 2) / - h) with 1 in B by (field; lra).
  apply Rabs_def2 in A. apply Rabs_def2 in B. lra.
Qed.

(** ** The hypotheses are met *)
Definition ex_b : list R := [0; 1; 3].
Definition ex_t : list R := [0; 0; 0; 0; 1; 3; 3; 3; 3].
Example C153_ex : good_breaks ex_b /\ augment_breaks ex_b (Z.of_nat 4) = Ok ex_t /\ (List.length ex_t - 4 <= 5)%nat /\ first_break ex_b < 1 < last_break ex_b.
Proof.
  split. { split; [cbn; lia|]. intros i Hi. cbn in Hi. destruct i as [|[|i]]; cbn; try lra; lia. }
  split; [reflexivity|]. split; [cbn; lia|]. cbn; lra.
Qed.

(** Cubic spline with 5 x 3 coefficients: the second time derivative at the
    break point 1 is evaluated and is that of the spline. *)
Example C153_ex_value : exists M r v, from_bspline 5 3 (fun i d => INR (i * i + d)) ex_t 4 None = Ok M /\
  model_coeffs M (scalar 1) None (Some 2%nat) XNone = Ok r /\ s_at r [] 2 = Some v /\
  v = 365.25 ^ 2 * Derive_n (spline ex_t 3 (fun i => INR (i * i + 2)) 5) 2 1.
Proof.
  destruct C153_ex as (G & Ea & Hr & Hy).
  destruct (C153_coefficients_are_smooth ex_b 4 ex_t 5 3 (fun i d => INR (i * i + d)) None G ltac:(lia) Ea Hr) as (M & E & V).
  destruct (spline_model_smooth ex_b 4 ex_t 5 3 (fun i d => INR (i * i + d)) None G ltac:(lia) Ea Hr) as (C & E' & _).
  pose proof E as EM. rewrite E' in EM. injection EM as <-.
  assert (XE : exists r, model_coeffs (model_init (Some ex_b) (Some (Z.of_nat 4)) (Some (mkc3 4 (List.length ex_b - 1) 3 C)) None) (scalar 1) None (Some 2%nat) XNone = Ok r).
  { unfold model_coeffs, synth_coeffs, ex_b. cbn. rdecs; eexists; reflexivity. }
  destruct XE as [r Er]. eexists _, r, _. split; [exact E|]. split; [exact Er|]. split; [|reflexivity].
  destruct (V 2%nat 2%nat 1 ltac:(lia) ltac:(lia) Hy) as (_ & _ & W). apply (W _ _ _ _ [] Er); [constructor|reflexivity].
Qed.

Print Assumptions C153_pieces_join_smoothly.
Print Assumptions C153_coefficients_are_smooth.
Print Assumptions C153_field_is_smooth.
Print Assumptions C153_smoothness_is_sharp.
