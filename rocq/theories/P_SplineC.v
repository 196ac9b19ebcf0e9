(** The pieces of a spline join with continuous derivatives; the values of a
    model made from a spline are the derivatives of one function of time. *)
From Coq Require Import Reals List Arith ZArith String Bool Lia Lra.
From Coquelicot Require Import Coquelicot.
From Verif Require Import M_Prelude M_ND Spec_Field Spec_Spline Spec_PP Spec_Smooth M_Spectrum M_Spline M_PP M_Model M_FromSpline
  P_Spectrum P_Spline P_Spline2 P_Spline3 P_Spline4 P_Spline5 P_PP P_PP2 P_SHCModel2 P_Smooth.
Import ListNotations.
Open Scope R_scope.

(** ** Polynomials *)
Lemma isP_zero j : forall g u v, u < v -> isP j g -> (forall y, u < y < v -> g y = 0) -> forall y, g y = 0.
Proof.
  induction j as [|j IH]; intros g u v H P Z0 y.
  - destruct P as [c P]. rewrite P, <- (P ((u + v) / 2)). apply Z0. lra.
  - destruct P as (g' & D & P).
    assert (Z1 : forall y, g' y = 0).
    { apply (IH g' u v H P). intros z Hz. assert (A : is_derive g z 0).
      { apply (is_derive_ext_loc (fun _ => 0)); [|exact (is_derive_const (K := R_AbsRing) (V := R_NormedModule) 0 z)].
        assert (E : 0 < Rmin (z - u) (v - z)) by (apply Rmin_pos; lra). exists (mkposreal _ E). intros w Hw.
        symmetry. apply Z0. unfold ball in Hw. cbn in Hw. unfold AbsRing_ball, abs, minus, plus, opp in Hw. cbn in Hw.
        apply Rabs_lt_between in Hw. pose proof (Rmin_l (z - u) (v - z)). pose proof (Rmin_r (z - u) (v - z)). lra. }
      pose proof (is_derive_unique _ _ _ (D z)) as U1. pose proof (is_derive_unique _ _ _ A) as U2. congruence. }
    rewrite (const_of_derive g (fun z => eq_ind (g' z) (fun w => is_derive g z w) (D z) 0 (Z1 z)) y ((u + v) / 2)). apply Z0. lra.
Qed.
Lemma isP_same j g h u v : u < v -> isP j g -> isP j h -> (forall y, u < y < v -> g y = h y) -> forall y, g y = h y.
Proof.
  intros H P1 P2 S y. assert (A : g y + (-1) * h y = 0); [|lra].
  apply (isP_zero j (fun y => g y + (-1) * h y) u v H); [apply isP_plus; [exact P1|apply isP_scal; exact P2]|]. intros z Hz. rewrite S by exact Hz. ring.
Qed.
Lemma isP_L t ell k (sep : forall j n, (1 <= n <= j)%nat -> (j <= k)%nat -> knot t (ell + n - j) < knot t (ell + n)) : (k <= ell)%nat ->
  forall j c, (j <= k)%nat -> isP j (L t ell j c).
Proof.
  intros Hell. induction j as [|j IH]; intros c Hj.
  - exists (c 0%nat). intros y. unfold L. cbn. ring.
  - exists (L t ell j (grad t ell (S j) c)). split; [intros y; apply (L_derive t ell k); assumption|apply IH; lia].
Qed.

(** ** Joining *)
Section Join.
Variables (t : list R) (ell k : nat).
Hypothesis sep0 : forall j n, (1 <= n <= j)%nat -> (j <= k)%nat -> knot t (ell + n - j) < knot t (ell + n).
Hypothesis sep1 : forall j n, (1 <= n <= j)%nat -> (j <= k)%nat -> knot t (S ell + n - j) < knot t (S ell + n).
Hypothesis Hell : (k <= ell)%nat.
Hypothesis I0 : knot t ell < knot t (ell + 1).
Hypothesis I1 : knot t (ell + 1) < knot t (ell + 2).

Lemma joining j : (j <= k)%nat -> forall c c', (forall a, (a < j)%nat -> c' a = c (S a)) ->
  forall m, (m < j)%nat -> Derive_n (L t ell j c) m (knot t (ell + 1)) = Derive_n (L t (S ell) j c') m (knot t (ell + 1)).
Proof.
  induction j as [|j IH]; intros Hj c c' H m Hm; [lia|]. set (y0 := knot t (ell + 1)).
  destruct m as [|m].
  - cbn [Derive_n]. unfold L at 1. change (seq 0 (S (S j))) with (0%nat :: seq 1 (S j)). cbn [map]. rewrite Rsum_cons.
    rewrite (V_shift t ell j I0 I1), (V_out t (S ell) (S j) (Z.of_nat 0 - 1)) by lia. rewrite Rmult_0_r, Rplus_0_l. rewrite <- seq_shift, map_map.
    unfold L. rewrite (P_Spline.Rsum_snoc (fun a => c' a * V t (S ell) (S j) (Z.of_nat a) y0)). fold y0. replace (V t (S ell) (S j) (Z.of_nat (S j)) y0) with 0.
    + rewrite Rmult_0_r, Rplus_0_r. apply Rsum_seq_ext. intros n Hn. unfold y0. rewrite (V_shift t ell j I0 I1). rewrite (H n) by lia. do 2 f_equal. lia.
    + pose proof (V_shift t ell j I0 I1 (Z.of_nat (S (S j)))) as E. fold y0 in E. replace (Z.of_nat (S (S j)) - 1)%Z with (Z.of_nat (S j)) in E by lia. rewrite <- E. symmetry. apply V_out. lia.
  - rewrite (isP_Derive j (L t ell (S j) c) (L t ell j (grad t ell (S j) c))) by (intros y; apply (L_derive t ell k); assumption).
    rewrite (isP_Derive j (L t (S ell) (S j) c') (L t (S ell) j (grad t (S ell) (S j) c'))) by (intros y; apply (L_derive t (S ell) k); assumption || lia).
    apply IH; [lia| |lia]. intros a Ha. unfold grad. replace (S ell + S a)%nat with (ell + S (S a))%nat by lia. rewrite !H by lia. reflexivity.
Qed.
End Join.

(** ** The pieces of a model made from a spline *)
Section Pieces.
Variables (b : list R) (K : nat) (t : list R).
Hypothesis G : good_breaks b.
Hypothesis HK : (2 <= K)%nat.
Hypothesis Ea : augment_breaks b (Z.of_nat K) = Ok t.
Let k := (K - 1)%nat.
Let n := (List.length t - K)%nat.
Let HK1 : (1 <= K)%nat. Proof. lia. Qed.

Lemma spline_L C p y : in_interval b p y -> spline t k C n y = L t (k + p) k (fun a => C (p + a)%nat) y.
Proof.
  intros I. pose proof (len_t b K t G HK1 Ea) as LT. pose proof (proj1 G) as LB. pose proof I as (IL & _).
  pose proof (spline_spoly b K t G HK1 Ea C (map C (seq 0 n)) p y I (fun i Hi => map_seq_nth C n i Hi)) as SS. fold k n in SS. rewrite SS.
  unfold L, spoly. fold k. replace (k + 1)%nat with (S k) by lia. apply Rsum_seq_ext. intros a Ha.
  rewrite (map_seq_nth C n (p + a)) by (unfold n, k in *; lia). f_equal.
  destruct (deboor_same t (k + p) k (aug_sep b K t G HK1 Ea p IL) ltac:(lia) y 0 ltac:(lia)) as [E _]. specialize (E a ltac:(lia)).
  cbn [DD] in E. rewrite Nat.sub_0_r in E. exact E.
Qed.

Lemma pieces_join (g : nat -> R -> R) C : (forall p, (p + 1 < List.length b)%nat -> isP k (g p)) ->
  (forall p y, in_interval b p y -> g p y = spline t k C n y) ->
  forall p m, (p + 2 < List.length b)%nat -> (m < k)%nat -> Derive_n (g p) m (nth (p + 1) b 0) = Derive_n (g (p + 1)%nat) m (nth (p + 1) b 0).
Proof.
  intros HP HS p m Hp Hm.
  assert (E : forall q, (q + 1 < List.length b)%nat -> forall y, g q y = L t (k + q) k (fun a => C (q + a)%nat) y).
  { intros q Hq. pose proof (proj2 G q Hq) as O. apply (isP_same k _ _ (nth q b 0) (nth (q + 1) b 0) O).
    - apply HP, Hq.
    - apply (isP_L t (k + q) k (aug_sep b K t G HK1 Ea q Hq)); lia.
    - intros y Hy. assert (I : in_interval b q y) by (split; [exact Hq|]; split; [lra|left; lra]). rewrite HS by exact I. apply spline_L, I. }
  rewrite (Derive_n_ext _ _ m _ (E p ltac:(lia))), (Derive_n_ext _ _ m _ (E (p + 1)%nat ltac:(lia))).
  pose proof (knot_b b K t G HK1 Ea p ltac:(lia)) as B0. pose proof (knot_b b K t G HK1 Ea (p + 1) ltac:(lia)) as B1. pose proof (knot_b b K t G HK1 Ea (p + 2) ltac:(lia)) as B2. fold k in B0, B1, B2.
  pose proof (proj2 G p ltac:(lia)) as O0. pose proof (proj2 G (p + 1)%nat ltac:(lia)) as O1. replace (p + 1 + 1)%nat with (p + 2)%nat in O1 by lia.
  pose proof (aug_sep b K t G HK1 Ea p ltac:(lia)) as S0. pose proof (aug_sep b K t G HK1 Ea (p + 1) ltac:(lia)) as S1. fold k in S0, S1.
  replace (k + (p + 1))%nat with (S (k + p)) in S1 |- * by lia.
  rewrite <- B1. replace (k + (p + 1))%nat with (k + p + 1)%nat by lia.
  apply (joining t (k + p) k); try assumption; try lia.
  - replace (k + p + 1)%nat with (k + (p + 1))%nat by lia. rewrite B0, B1. exact O0.
  - replace (k + p + 1)%nat with (k + (p + 1))%nat by lia. replace (k + p + 2)%nat with (k + (p + 2))%nat by lia. rewrite B1, B2. exact O1.
  - intros a Ha. f_equal. lia.
Qed.

End Pieces.

(** ** Two functions glued at y *)
Definition glue2 (y : R) (f g : R -> R) (z : R) : R := if Rle_dec y z then g z else f z.
Lemma glue2_derive y f g l : f y = g y -> is_derive f y l -> is_derive g y l -> is_derive (glue2 y f g) y l.
Proof.
  intros E F' G'. apply is_derive_Reals in F', G'. apply is_derive_Reals. intros eps He.
  destruct (F' eps He) as [d1 H1]. destruct (G' eps He) as [d2 H2].
  assert (P : 0 < Rmin d1 d2) by (apply Rmin_pos; [apply (cond_pos d1)|apply (cond_pos d2)]). exists (mkposreal _ P). intros h Hh Hd. cbn in Hd.
  pose proof (Rmin_l d1 d2). pose proof (Rmin_r d1 d2). unfold glue2.
  destruct (Rle_dec y y) as [_|C]; [|lra]. destruct (Rle_dec y (y + h)).
  - apply H2; lra.
  - rewrite <- E. apply H1; lra.
Qed.
Lemma glue2_continuous y f g : f y = g y -> continuous f y -> continuous g y -> continuous (glue2 y f g) y.
Proof.
  intros E F' G'. apply continuity_pt_filterlim in F', G'. apply continuity_pt_filterlim. intros eps He.
  destruct (F' eps He) as (d1 & P1 & H1). destruct (G' eps He) as (d2 & P2 & H2).
  exists (Rmin d1 d2). split; [apply Rmin_pos; assumption|]. intros z [Hz Hd]. cbn in *. unfold R_dist in *.
  pose proof (Rmin_l d1 d2). pose proof (Rmin_r d1 d2). unfold glue2. destruct (Rle_dec y y) as [_|C]; [|lra].
  destruct (Rle_dec y z).
  - apply H2. split; [exact Hz|]. cbn. unfold R_dist. lra.
  - rewrite <- E. apply H1. split; [exact Hz|]. cbn. unfold R_dist. lra.
Qed.

Lemma near (y u v : R) (P : R -> Prop) : u < y < v -> (forall z, u < z < v -> P z) -> locally y P.
Proof.
  intros H HP. assert (E : 0 < Rmin (y - u) (v - y)) by (apply Rmin_pos; lra). exists (mkposreal _ E). intros w Hw. apply HP.
  unfold ball in Hw. cbn in Hw. unfold AbsRing_ball, abs, minus, plus, opp in Hw. cbn in Hw.
  apply Rabs_lt_between in Hw. pose proof (Rmin_l (y - u) (v - y)). pose proof (Rmin_r (y - u) (v - y)). lra.
Qed.

(** ** Pieces glued together *)
Section Glue.
Variables (b : list R) (k : nat) (g : nat -> R -> R) (F : R -> R).
Hypothesis G : good_breaks b.
Hypothesis HP : forall p, (p + 1 < List.length b)%nat -> isP k (g p).
Hypothesis HF : forall p y, in_interval b p y -> g p y = F y.
Hypothesis HJ : forall p m, (p + 2 < List.length b)%nat -> (m < k)%nat -> Derive_n (g p) m (nth (p + 1) b 0) = Derive_n (g (p + 1)%nat) m (nth (p + 1) b 0).

Lemma isP_derivable j h : isP j h -> forall m y, is_derive (Derive_n h m) y (Derive_n h (S m) y).
Proof.
  intros H m y. cbn [Derive_n]. apply Derive_correct. revert j h H. induction m as [|m IH]; intros j h H.
  - cbn [Derive_n]. apply isP_up in H. destruct H as (h' & D & _). exists (h' y). apply D.
  - apply isP_up in H. destruct H as (h' & D & P). apply (ex_derive_ext (Derive_n h' m)).
    + intros z. symmetry. apply (isP_Derive j h h' D).
    + apply (IH j h' P).
Qed.

(** around an interior time: one piece, or two pieces and their break *)
Lemma around y : first_break b < y < last_break b -> exists p u v, u < y < v /\ in_interval b p y /\
  ((forall z, u < z < v -> in_interval b p z) \/
   (exists q, p = (q + 1)%nat /\ (q + 2 < List.length b)%nat /\ y = nth (q + 1) b 0 /\ forall z, u < z < v -> in_interval b (if Rle_dec y z then p else q) z)).
Proof.
  intros Hy. destruct (in_interval_ex b y G ltac:(lra)) as [p I]. pose proof I as (IL & I1 & I2). pose proof (proj2 G p IL) as O.
  assert (Y2 : y < nth (p + 1) b 0).
  { destruct I2 as [I2|[E I2]]; [exact I2|]. exfalso. unfold last_break in Hy. replace (List.length b - 1)%nat with (p + 1)%nat in Hy by lia. lra. }
  destruct (Rlt_le_dec (nth p b 0) y) as [L1|L1].
  - exists p, (nth p b 0), (nth (p + 1) b 0). split; [lra|]. split; [exact I|]. left. intros z Hz. split; [exact IL|]. split; [lra|left; lra].
  - assert (Ey : y = nth p b 0) by lra. destruct p as [|q]; [unfold first_break in Hy; lra|].
    pose proof (proj2 G q ltac:(lia)) as O1. replace (q + 1)%nat with (S q) in O1 by lia.
    exists (S q), (nth q b 0), (nth (S q + 1) b 0). split; [lra|]. split; [exact I|]. right. exists q.
    split; [lia|]. split; [lia|]. split; [rewrite Ey; f_equal; lia|]. intros z Hz. destruct (Rle_dec y z).
    + split; [exact IL|]. split; [lra|left; lra].
    + split; [lia|]. split; [lra|]. left. replace (q + 1)%nat with (S q) by lia. lra.
Qed.

Lemma inner (y u v : R) : u < y < v -> first_break b < y < last_break b ->
  exists u' v', u' < y < v' /\ forall z, u' < z < v' -> u < z < v /\ first_break b < z < last_break b.
Proof.
  intros H1 H2. exists (Rmax u (first_break b)), (Rmin v (last_break b)). split; [split; [apply Rmax_lub_lt; lra|apply Rmin_glb_lt; lra]|].
  intros z Hz. pose proof (Rmax_l u (first_break b)). pose proof (Rmax_r u (first_break b)). pose proof (Rmin_l v (last_break b)). pose proof (Rmin_r v (last_break b)). lra.
Qed.

Lemma glued m : (m < k)%nat -> forall y, first_break b < y < last_break b ->
  ex_derive_n F m y /\ forall p, in_interval b p y -> Derive_n F m y = Derive_n (g p) m y.
Proof.
  induction m as [|m IH]; intros Hm y Hy.
  - split; [exact Logic.I|]. cbn [Derive_n]. intros q Iq; symmetry; apply HF, Iq.
  - specialize (IH ltac:(lia)). destruct (around y Hy) as (p & u & v & Huv & I & C). destruct (inner y u v Huv Hy) as (u' & v' & Huv' & IN).
    assert (D : is_derive (Derive_n F m) y (Derive_n (g p) (S m) y)).
    { destruct C as [C|(q & -> & Hq & Ey & C)].
      - apply (is_derive_ext_loc (Derive_n (g p) m)).
        { apply (near y u' v' _ Huv'). intros z Hz. destruct (IN z Hz) as [Z1 Z2]. symmetry. apply (proj2 (IH z Z2) p (C z Z1)). }
        apply (isP_derivable k (g p)). apply HP, I.
      - apply (is_derive_ext_loc (glue2 y (Derive_n (g q) m) (Derive_n (g (q + 1)%nat) m))).
        { apply (near y u' v' _ Huv'). intros z Hz. destruct (IN z Hz) as [Z1 Z2]. specialize (C z Z1). unfold glue2.
          destruct (Rle_dec y z); symmetry; apply (proj2 (IH z Z2) _ C). }
        apply glue2_derive.
        + rewrite Ey. apply HJ; [exact Hq|lia].
        + replace (Derive_n (g (q + 1)%nat) (S m) y) with (Derive_n (g q) (S m) y) by (rewrite Ey; apply HJ; [exact Hq|lia]). apply (isP_derivable k (g q)). apply HP. lia.
        + apply (isP_derivable k (g (q + 1)%nat)). apply HP. lia. }
    split; [exists (Derive_n (g p) (S m) y); exact D|].
    intros q Iq. cbn [Derive_n] in *. rewrite (is_derive_unique _ _ _ D). assert (q = p) by (apply (C39_unique b y q p G Iq I)). subst q. reflexivity.
Qed.

Lemma isP_continuous j h m y : isP j h -> continuous (Derive_n h m) y.
Proof.
  intros H. apply (ex_derive_continuous (K := R_AbsRing) (V := R_NormedModule)). exists (Derive_n h (S m) y). apply (isP_derivable j h H).
Qed.
Lemma glued_continuous m : (m < k)%nat -> forall y, first_break b < y < last_break b -> continuous (Derive_n F m) y.
Proof.
  intros Hm y Hy. destruct (around y Hy) as (p & u & v & Huv & I & C). destruct (inner y u v Huv Hy) as (u' & v' & Huv' & IN).
  destruct C as [C|(q & -> & Hq & Ey & C)].
  - apply (continuous_ext_loc _ (Derive_n (g p) m)).
    { apply (near y u' v' _ Huv'). intros z Hz. destruct (IN z Hz) as [Z1 Z2]. symmetry. apply (proj2 (glued m Hm z Z2) p (C z Z1)). }
    apply (isP_continuous k). apply HP, I.
  - apply (continuous_ext_loc _ (glue2 y (Derive_n (g q) m) (Derive_n (g (q + 1)%nat) m))).
    { apply (near y u' v' _ Huv'). intros z Hz. destruct (IN z Hz) as [Z1 Z2]. specialize (C z Z1). unfold glue2.
      destruct (Rle_dec y z); symmetry; apply (proj2 (glued m Hm z Z2) _ C). }
    apply glue2_continuous; [rewrite Ey; apply HJ; assumption| |]; apply (isP_continuous k); apply HP; lia.
Qed.
End Glue.

(** ** Models *)
Lemma piece_derivative x K c i d deriv y : 
  is_derive_n (fun year => piece x K c i d (365.25 * year)) deriv (y / 365.25) (365.25 ^ deriv * Derive_n (piece x K c i d) deriv y).
Proof.
  pose proof (is_derive_n_poly K (fun r => c r i d) (nth i x 0) 365.25 deriv (y / 365.25)) as P. rewrite year_day in P.
  pose proof (is_derive_n_poly K (fun r => c r i d) (nth i x 0) 1 deriv y) as P1. rewrite Rmult_1_l, pow1, Rmult_1_l in P1.
  assert (E : Derive_n (piece x K c i d) deriv y = poly_eval K (fun r => c r i d) deriv (y - nth i x 0)).
  { rewrite (Derive_n_ext _ (fun y => poly_eval K (fun r => c r i d) 0 (1 * y - nth i x 0)) deriv y).
    - apply is_derive_n_unique. exact P1.
    - intros z. rewrite piece_poly. f_equal. ring. }
  rewrite E. apply (is_derive_n_ext (fun y => poly_eval K (fun r => c r i d) 0 (365.25 * y - nth i x 0))); [intros z; symmetry; apply piece_poly|exact P].
Qed.

Lemma spline_model_smooth b K t rows dim (c : nat -> nat -> R) source :
  good_breaks b -> (2 <= K)%nat -> augment_breaks b (Z.of_nat K) = Ok t -> (List.length t - K <= rows)%nat ->
  exists C, from_bspline rows dim c t K source = Ok (model_init (Some b) (Some (Z.of_nat K)) (Some (mkc3 K (List.length b - 1) dim C)) source) /\
    forall d, (d < dim)%nat -> smooth_at_breaks b K C d /\ forall p y, in_interval b p y -> piece b K C p d y = spline t (K - 1) (fun i => c i d) (List.length t - K) y.
Proof.
  intros G HK Ea Hr. destruct (pp_is_spline b K t G ltac:(lia) Ea rows dim c Hr) as (C & E & S). exists C. unfold from_bspline. rewrite E. split; [reflexivity|].
  intros d Hd. split; [|intros p y; apply S, Hd]. intros i m Hi Hm.
  apply (pieces_join b K t G HK Ea (fun p => piece b K C p d) (fun i => c i d)).
  - intros p Hp. apply isP_piece. lia.
  - intros p y. apply S, Hd.
  - exact Hi.
  - lia.
Qed.

Lemma smooth_model b K D C d F : good_breaks b -> (1 <= K)%nat -> (d < D)%nat -> smooth_at_breaks b K C d ->
  (forall p y, in_interval b p y -> piece b K C p d y = F y) ->
  forall m y, (m + 2 <= K)%nat -> first_break b < y < last_break b ->
  ex_derive_n F m y /\ continuous (Derive_n F m) y /\
  forall time dim e r idx, synth_coeffs (base_init (Some b) None (Some (mkc3 K (List.length b - 1) D C))) time dim (Some m) e = Ok r -> valid (sh time) idx -> at_ time idx = y ->
    s_at r idx d = Some (365.25 ^ m * Derive_n F m y).
Proof.
  intros G HK Hd S HF m y Hm Hy.
  assert (HP : forall p, (p + 1 < List.length b)%nat -> isP (K - 1) (piece b K C p d)) by (intros p _; apply isP_piece; lia).
  assert (HJ : forall p m, (p + 2 < List.length b)%nat -> (m < K - 1)%nat -> Derive_n (piece b K C p d) m (nth (p + 1) b 0) = Derive_n (piece b K C (p + 1) d) m (nth (p + 1) b 0)) by (intros p i H1 H2; apply S; lia).
  destruct (glued b (K - 1) (fun p => piece b K C p d) F G HP HF HJ m ltac:(lia) y Hy) as [X V].
  split; [exact X|]. split; [exact (glued_continuous b (K - 1) (fun p => piece b K C p d) F G HP HF HJ m ltac:(lia) y Hy)|].
  intros time dim e r idx E Hv Ey. destruct (in_interval_ex b y G ltac:(lra)) as [p I]. rewrite <- Ey in I.
  destruct (C40 b K D C time dim m e r idx p d G HK Hd Hv E I) as (v & Ev & Dv); [left; rewrite Ey; lra|].
  rewrite Ev. f_equal. rewrite Ey in *. rewrite (V p I). pose proof (piece_derivative b K C p d m y) as PD.
  rewrite <- (is_derive_n_unique _ _ _ _ Dv). apply is_derive_n_unique. exact PD.
Qed.
