(** Accumulated rounding errors (C129-C131).  [rn] and [double] are in
    Spec_Float, [near], [fsum], [accurate_pow], [sizeable] and [moderate] in
    Spec_Rounding, [degree_power] in Spec_Field, [piece] in Spec_PP; bpow radix2 e is 2^e;
    [contributions], [cos_sin], [sin_cos], [weight], [rho], [sizes_ok], [excess], [over_nm] in Spec_SynthF,
    [terms_near] in Spec_Rounding. *)
From Coq Require Import ZArith Reals List String Lia Lra.
From Flocq Require Import Core.
From Coquelicot Require Import Coquelicot.
From Verif Require Import M_Prelude M_Legendre M_SpectrumF M_PP M_PPF M_SynthF Spec_Legendre Spec_Field Spec_PP Spec_Float Spec_Rounding Spec_SynthF
  P_Float P_Rounding P_SpectrumF P_PPF P_SynthF P_SynthF2 W_SynthF.
Import ListNotations.
Open Scope R_scope.

(** ** C129 *)

(** Up to a million roundings change a number by at most 1.2e-16 each. *)
Theorem C129_meaning_of_near : forall k x y, INR k <= 1000000 -> near k x y -> Rabs (y - x) <= 1.2e-16 * INR k * Rabs x.
Proof. exact near_err. Qed.

(** Whatever the order in which the squares are added, each entry of the
    spectrum of internal coefficients has a relative error of at most
    1.2e-16 (4n+7+p), where p roundings are the error of the power function. *)
Theorem C129_internal_spectrum_error : forall p pow a rad l n w,
  accurate_pow p pow -> 0 < a -> 0 < rad -> (1 <= n)%nat -> (n * (n + 2) <= List.length l)%nat ->
  moderate l -> bpow radix2 (-300) <= (a / rad) ^ (2 * n + 4) -> INR (4 * n + 8 + p) <= 1000000 ->
  spectrum_f pow a (Some rad) "internal" l n w ->
  let W := INR (n + 1) * (a / rad) ^ (2 * n + 4) * degree_power l n in Rabs (w - W) <= 1.2e-16 * INR (4 * n + 7 + p) * W.
Proof. exact internal_error. Qed.

Theorem C129_external_spectrum_error : forall p pow a rad l n w,
  accurate_pow p pow -> 0 < a -> 0 < rad -> (1 <= n)%nat -> (n * (n + 2) <= List.length l)%nat ->
  moderate l -> bpow radix2 (-300) <= a / rad -> bpow radix2 (-300) <= (rad / a) ^ (2 * n - 2) -> INR (4 * n + 2 + p) <= 1000000 ->
  spectrum_f pow a (Some rad) "external" l n w ->
  let W := INR n * (rad / a) ^ (2 * n - 2) * degree_power l n in Rabs (w - W) <= 1.2e-16 * INR (4 * n + 1 + p) * W.
Proof. exact external_error. Qed.

Theorem C129_toroidal_spectrum_error : forall pow a radius l n w,
  (1 <= n)%nat -> (n * (n + 2) <= List.length l)%nat ->
  moderate l -> INR (2 * n + 4) <= 1000000 -> spectrum_f pow a radius "toroidal" l n w ->
  let W := INR (n * (n + 1)) / INR (2 * n + 1) * degree_power l n in Rabs (w - W) <= 1.2e-16 * INR (2 * n + 3) * W.
Proof. exact toroidal_error. Qed.

(** Without a radius (at the reference surface) *)
Theorem C129_surface_spectrum_error : forall pow a l n w, (1 <= n)%nat -> (n * (n + 2) <= List.length l)%nat ->
  moderate l -> INR (2 * n + 4) <= 1000000 ->
  (spectrum_f pow a None "internal" l n w ->
    let W := INR (n + 1) * degree_power l n in Rabs (w - W) <= 1.2e-16 * INR (2 * n + 3) * W) /\
  (spectrum_f pow a None "external" l n w ->
    let W := INR n * degree_power l n in Rabs (w - W) <= 1.2e-16 * INR (2 * n + 3) * W).
Proof. exact surface_error. Qed.

(** There is a result for every complete vector. *)
Theorem C129_spectrum_exists : forall pow a radius source l n, (1 <= n)%nat -> (n * (n + 2) <= List.length l)%nat ->
  source = "internal"%string \/ source = "external"%string \/ source = "toroidal"%string -> exists w, spectrum_f pow a radius source l n w.
Proof. exact spectrum_f_exists. Qed.

(** Degree 2 of eight coefficients, at the core-mantle boundary, with a power
    function that does not round at all. *)
Example C129_applies :
  let l := map IZR [-29442; -1501; 4797; -2445; 3013; -2846; 1677; -642]%Z in
  accurate_pow 0 powerRZ /\ (2 * (2 + 2) <= List.length l)%nat /\ moderate l /\
  bpow radix2 (-300) <= (6371.2 / 3485) ^ (2 * 2 + 4) /\ bpow radix2 (-300) <= 6371.2 / 3485 /\
  bpow radix2 (-300) <= (3485 / 6371.2) ^ (2 * 2 - 2) /\ INR (4 * 2 + 8 + 0) <= 1000000.
Proof.
  intros l.
  assert (B : bpow radix2 (-300) <= / 16).
  { change (/ 16) with (bpow radix2 (-4)). apply bpow_le. discriminate. }
  repeat split.
  - intros x k _ _. apply near_refl.
  - cbn. lia.
  - apply Forall_forall. intros g Hg. unfold l in Hg. apply in_map_iff in Hg. destruct Hg as (z & <- & Hz).
    assert (Hb : (1 <= Z.abs z < 2 ^ 53)%Z).
    { cbn in Hz. repeat (destruct Hz as [<- |Hz]; [split; vm_compute; first [reflexivity|discriminate]|]). contradiction. }
    split.
    + exists z, 0%Z. split; [cbn; ring|]. split; [exact (proj2 Hb)|discriminate].
    + right. rewrite <- abs_IZR, powerRZ_bpow. apply Rle_trans with (1 := B). apply Rle_trans with 1; [lra|]. apply IZR_le, Hb.
  - apply Rle_trans with (1 := B). apply Rle_trans with 1; [lra|]. apply pow_R1_Rle. lra.
  - lra.
  - apply Rle_trans with (1 := B). cbn. lra.
  - cbn. lra.
Qed.

(** ** C130 *)

(** Inside the model period the computed coefficient (nu-th derivative per
    year^nu) is the exact one for a model whose coefficients were changed by at
    most 3K+2+p roundings each; p is the error of 365.25**nu. *)
Theorem C130_values_are_exact_for_a_nearby_model : forall x K c i d nu t scale p,
  good_breaks x -> (1 <= K)%nat -> in_interval x i t ->
  double t -> double (nth i x 0) -> near p (365.25 ^ nu) scale -> INR (3 * K + 3 + p) <= 1000000 ->
  (forall r, (r < K)%nat -> sizeable (c r i d)) -> (forall j, (j <= K)%nat -> sizeable ((t - nth i x 0) ^ j)) ->
  exists v c', value_f scale x K c nu t d = Some v /\ (forall r, near (3 * K + 2 + p) (c r i d) (c' r i d)) /\
    is_derive_n (fun year => piece x K c' i d (365.25 * year)) nu (t / 365.25) v.
Proof. exact value_backward. Qed.

(** The error of a value, relative to the sum of the absolute terms. *)
Theorem C130_value_error : forall x K c i d t, good_breaks x -> (1 <= K)%nat -> in_interval x i t ->
  double t -> double (nth i x 0) -> INR (3 * K + 3) <= 1000000 ->
  (forall r, (r < K)%nat -> sizeable (c r i d)) -> (forall j, (j <= K)%nat -> sizeable ((t - nth i x 0) ^ j)) ->
  exists v, value_f 1 x K c 0 t d = Some v /\
    Rabs (v - piece x K c i d t) <= 1.2e-16 * INR (3 * K + 2) * piece x K (fun r i d => Rabs (c r i d)) i d t.
Proof. exact value_forward. Qed.

(** Order 6, half-year knots, time in the second interval, second derivative. *)
Example C130_applies : let x := [0; 182.625; 365.25] in let t := 200 in
  good_breaks x /\ in_interval x 1 t /\ double t /\ double (nth 1 x 0) /\ near 0 (365.25 ^ 2) (365.25 ^ 2) /\
  INR (3 * 6 + 3 + 0) <= 1000000 /\ sizeable (-29442.5) /\ (forall j, (j <= 6)%nat -> sizeable ((t - nth 1 x 0) ^ j)).
Proof.
  intros x t.
  assert (B : powerRZ 2 (-300) <= 1).
  { rewrite powerRZ_bpow. change 1 with (bpow radix2 0). apply bpow_le. discriminate. }
  repeat split.
  - cbn. lia.
  - intros i Hi. cbn in Hi. destruct i as [|[|i]]; cbn; [lra|lra|lia].
  - cbn. lia.
  - cbn. unfold t. lra.
  - cbn. unfold t. left. lra.
  - exists 200%Z, 0%Z. split; [cbn; unfold t; ring|]. split; [reflexivity|discriminate].
  - exists 1461%Z, (-3)%Z. split; [rewrite powerRZ_bpow; cbn; lra|]. split; [reflexivity|discriminate].
  - apply near_refl.
  - cbn. lra.
  - right. rewrite Rabs_left1 by lra. lra.
  - intros j _. right. rewrite Rabs_pos_eq by (apply pow_le; cbn; unfold t; lra).
    apply Rle_trans with (1 := B). apply pow_R1_Rle. cbn. unfold t. lra.
Qed.

(** ** C131 *)

(** What [terms_near] means: the error relative to the sum of the absolute terms *)
Theorem C131_meaning_of_terms_near : forall k l y, INR k <= 1000000 -> terms_near k l y -> Rabs (y - Rsum l) <= 1.2e-16 * INR k * Rsum (map Rabs l).
Proof. exact terms_near_err. Qed.

(** The three components computed for a complete coefficient vector are the
    sums of the contributions of the single coefficients, each of which is
    changed by at most 2 nmax + 8 + p + (nmax+1)(mmax+1) roundings. *)
Theorem C131_field_is_a_sum_of_rounded_contributions : forall p pow fcos fsin s a nmin nmax mmax pole (P : tab) g h rest radius phi,
  let cs m := fcos (rn (INR m * phi)) in let sn m := fsin (rn (INR m * phi)) in
  let K := (2 * nmax + 8 + p + (nmax + 1) * (mmax + 1))%nat in
  accurate_pow p pow -> 0 < a -> 0 < radius -> (1 <= nmin <= nmax)%nat -> INR K <= 1000000 -> fcos 0 = 1 -> fsin 0 = 0 ->
  sizes_ok s a nmin nmax mmax pole P g h cs sn radius ->
  exists br bt bp,
    synth_point_f pow fcos fsin s a nmin nmax mmax pole P (gauss_list nmin nmax mmax g h ++ rest) radius phi = Ok (br, bt, bp) /\
    terms_near K (contributions 0 nmin nmax mmax (cos_sin g h cs sn (fun n m => weight s n * P n m * rho s a radius n))) br /\
    terms_near K (contributions 0 nmin nmax mmax (cos_sin g h cs sn (fun n m => - P m (n + 1)%nat * rho s a radius n))) bt /\
    terms_near K (contributions 1 nmin nmax mmax (sin_cos g h cs sn (fun n m =>
       INR m * (if pole then P m (n + 1)%nat * P 1%nat 0%nat else P n m / P 1%nat 1%nat) * rho s a radius n))) bp.
Proof. exact near_form. Qed.

(** Distance from the gradient of the potential: eP, eD, eE are the errors of
    the table of Legendre functions, of their derivatives and of their quotients
    by the sine, eT those of cosine and sine.  Without them the error is
    1.2e-16 K times the sum of the absolute contributions. *)
Theorem C131_distance_from_the_gradient_field : forall p pow fcos fsin s a nmin nmax mmax pole (P : tab) g h rest radius phi th lam eP eD eE eT,
  let cs m := fcos (rn (INR m * phi)) in let sn m := fsin (rn (INR m * phi)) in
  let K := (2 * nmax + 8 + p + (nmax + 1) * (mmax + 1))%nat in
  accurate_pow p pow -> 0 < a -> 0 < radius -> (1 <= nmin <= nmax)%nat -> INR K <= 1000000 -> fcos 0 = 1 -> fsin 0 = 0 ->
  sizes_ok s a nmin nmax mmax pole P g h cs sn radius ->
  0 <= eP -> 0 <= eD -> 0 <= eE -> 0 <= eT ->
  (forall n m, (nmin <= n <= nmax)%nat -> (m <= Nat.min n mmax)%nat -> Rabs (P n m - schmidt n m th) <= eP) ->
  (forall n m, (nmin <= n <= nmax)%nat -> (m <= Nat.min n mmax)%nat -> Rabs (P m (n + 1)%nat - Derive (schmidt n m) th) <= eD) ->
  (forall n m, (nmin <= n <= nmax)%nat -> (1 <= m <= Nat.min n mmax)%nat ->
     Rabs ((if pole then P m (n + 1)%nat * P 1%nat 0%nat else P n m / P 1%nat 1%nat) - schmidt n m th / sin th) <= eE) ->
  (forall m, (m <= Nat.min nmax mmax)%nat -> Rabs (cs m - cos (INR m * lam)) <= eT /\ Rabs (sn m - sin (INR m * lam)) <= eT) ->
  exists br bt bp Br Bt Bp,
    synth_point_f pow fcos fsin s a nmin nmax mmax pole P (gauss_list nmin nmax mmax g h ++ rest) radius phi = Ok (br, bt, bp) /\
    is_derive (fun x => potential s a nmin nmax mmax g h x th lam) radius (- Br) /\
    is_derive (fun x => potential s a nmin nmax mmax g h radius x lam) th (- (radius * Bt)) /\
    is_derive (fun x => potential s a nmin nmax mmax g h radius th x) lam (- (radius * sin th * Bp)) /\
    Rabs (br - Br) <= over_nm 0 nmin nmax mmax (fun n m =>
      Rabs (weight s n) * rho s a radius n * (Rabs (g n m) + Rabs (h n m)) * excess K eT 1 eP) /\
    Rabs (bt - Bt) <= over_nm 0 nmin nmax mmax (fun n m =>
      rho s a radius n * (Rabs (g n m) + Rabs (h n m)) * excess K eT (Rabs (Derive (schmidt n m) th)) eD) /\
    (sin th <> 0 -> Rabs (bp - Bp) <= over_nm 1 nmin nmax mmax (fun n m =>
      INR m * rho s a radius n * (Rabs (g n m) + Rabs (h n m)) * excess K eT (Rabs (schmidt n m th / sin th)) eE)).
Proof. exact distance_form. Qed.

(** A dipole of three coefficients, at colatitude 60 degrees and longitude 1
    radian, with an exact table and exact functions. *)
Example C131_applies :
  let P := w_table in let g := w_g in let h := w_h in
  let cs m := cos (rn (INR m * 1)) in let sn m := sin (rn (INR m * 1)) in
  accurate_pow 0 powerRZ /\ cos 0 = 1 /\ sin 0 = 0 /\ INR (2 * 1 + 8 + 0 + (1 + 1) * (1 + 1)) <= 1000000 /\
  sizes_ok Internal 6371.2 1 1 1 false P g h cs sn 6771.2 /\
  (forall n m, (1 <= n <= 1)%nat -> (m <= Nat.min n 1)%nat -> Rabs (P n m - schmidt n m (PI / 3)) <= 0) /\
  (forall n m, (1 <= n <= 1)%nat -> (m <= Nat.min n 1)%nat -> Rabs (P m (n + 1)%nat - Derive (schmidt n m) (PI / 3)) <= 0) /\
  (forall n m, (1 <= n <= 1)%nat -> (1 <= m <= Nat.min n 1)%nat -> Rabs (P n m / P 1%nat 1%nat - schmidt n m (PI / 3) / sin (PI / 3)) <= 0) /\
  (forall m, (m <= Nat.min 1 1)%nat -> Rabs (cs m - cos (INR m * 1)) <= 0 /\ Rabs (sn m - sin (INR m * 1)) <= 0) /\
  gauss_list 1 1 1 g h = [-29442; -1501; 4797].
Proof. exact w_applies. Qed.

Print Assumptions C129_internal_spectrum_error.
Print Assumptions C130_values_are_exact_for_a_nearby_model.
Print Assumptions C131_distance_from_the_gradient_field.
Print Assumptions C129_surface_spectrum_error.
Print Assumptions C129_external_spectrum_error.
Print Assumptions C129_spectrum_exists.
Print Assumptions C131_field_is_a_sum_of_rounded_contributions.
Print Assumptions C131_meaning_of_terms_near.
Print Assumptions C130_value_error.
Print Assumptions C129_meaning_of_near.
Print Assumptions C129_toroidal_spectrum_error.
