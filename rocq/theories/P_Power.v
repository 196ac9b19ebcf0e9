(** Mean products of elementary vector fields over the sphere. *)
From Coq Require Import Reals List Arith ZArith Bool Lia Lra.
From Coquelicot Require Import Coquelicot.
From Verif Require Import M_Prelude Spec_Legendre Spec_Field Spec_Power P_Legendre P_Legendre2 P_Ortho P_Synth P_SynthClosed P_Laplace P_Dft.
Import ListNotations.
Open Scope R_scope.

Lemma is_RInt_eq (f : R -> R) a b v w : is_RInt f a b v -> v = w -> is_RInt f a b w.
Proof. intros H <-. exact H. Qed.
Lemma is_RInt_0 a b w : w = 0 -> is_RInt (fun _ => 0) a b w.
Proof.
  intros ->. eapply is_RInt_eq; [apply (is_RInt_const (V := R_NormedModule))|]. change ((b - a) * 0 = 0). ring.
Qed.

Lemma is_RInt_lin (k : R) (f : R -> R) (g : R -> R) a b v w : is_RInt f a b v -> is_RInt g a b w ->
  is_RInt (fun x => k * f x + g x) a b (k * v + w).
Proof.
  intros A B. apply (is_RInt_plus (V := R_NormedModule) (fun x => k * f x) g); [|exact B].
  apply (is_RInt_scal (V := R_NormedModule) f a b k v A).
Qed.

(** ** Linearity of the mean *)
Lemma sphere_mean_ext f g v : (forall t p, 0 < t < PI -> f t p = g t p) -> sphere_mean f v -> sphere_mean g v.
Proof.
  intros H (G & A & B). exists G. split; [|exact B]. intros t Ht.
  apply (is_RInt_ext (V := R_NormedModule) (fun p => f t p)); [|apply A, Ht].
  intros p _. apply H, Ht.
Qed.

Lemma sphere_mean_plus f g v w : sphere_mean f v -> sphere_mean g w -> sphere_mean (fun t p => f t p + g t p) (v + w).
Proof.
  intros (G & A & B) (G' & A' & B'). exists (fun t => G t + G' t). split.
  - intros t Ht. apply (is_RInt_plus (V := R_NormedModule)); auto.
  - apply (is_RInt_ext (V := R_NormedModule) (fun t => plus (G t * sin t) (G' t * sin t))).
    + intros t _. change (@eq R (G t * sin t + G' t * sin t) ((G t + G' t) * sin t)). ring.
    + replace (4 * PI * (v + w)) with (plus (4 * PI * v) (4 * PI * w)) by (change (4 * PI * v + 4 * PI * w = 4 * PI * (v + w)); ring).
      apply (is_RInt_plus (V := R_NormedModule)); assumption.
Qed.

Lemma sphere_mean_0 : sphere_mean (fun _ _ => 0) 0.
Proof.
  exists (fun _ => 0). split.
  - intros t _. apply is_RInt_0; reflexivity.
  - apply (is_RInt_ext (V := R_NormedModule) (fun _ => 0)).
    + intros t _. change (@eq R 0 (0 * sin t)). ring.
    + apply is_RInt_0. ring.
Qed.

Lemma sphere_mean_Rsum {A} (f : A -> R -> R -> R) (v : A -> R) l : (forall a, In a l -> sphere_mean (f a) (v a)) ->
  sphere_mean (fun t p => Rsum (map (fun a => f a t p) l)) (Rsum (map v l)).
Proof.
  induction l as [|a l IH]; intros H; cbn [map].
  - apply sphere_mean_0.
  - apply (sphere_mean_plus (f a) (fun t p => Rsum (map (fun a => f a t p) l))).
    + apply H. left; reflexivity.
    + apply IH. intros b Hb. apply H. right; exact Hb.
Qed.

Lemma sphere_mean_unique f v w : sphere_mean f v -> sphere_mean f w -> v = w.
Proof.
  intros (G & A & B) (G' & A' & B'). pose proof PI_RGT_0.
  assert (E : is_RInt (fun t => G t * sin t) 0 PI (4 * PI * w)).
  { apply (is_RInt_ext (V := R_NormedModule) (fun t => G' t * sin t)); [|exact B'].
    intros t Ht. rewrite Rmin_left, Rmax_right in Ht by lra.
    change (@eq R (G' t * sin t) (G t * sin t)). f_equal.
    rewrite <- (is_RInt_unique (V := R_CompleteNormedModule) _ _ _ _ (A t Ht)).
    symmetry. exact (is_RInt_unique (V := R_CompleteNormedModule) _ _ _ _ (A' t Ht)). }
  apply (is_RInt_unique (V := R_CompleteNormedModule)) in B, E. rewrite B in E.
  apply (Rmult_eq_reg_l (4 * PI)); lra.
Qed.

(** ** Longitude *)
Lemma trig_int (j : Z) u v :
  is_RInt (fun p => u * cos (IZR j * p) + v * sin (IZR j * p)) 0 (2 * PI) (if (j =? 0)%Z then 2 * PI * u else 0).
Proof.
  destruct (Z.eqb_spec j 0) as [->|E].
  - apply (is_RInt_ext (V := R_NormedModule) (fun _ => u)).
    + intros p _. change (@eq R u (u * cos (0 * p) + v * sin (0 * p))). rewrite Rmult_0_l, cos_0, sin_0. ring.
    + replace (2 * PI * u) with (scal (2 * PI - 0) u) by (change ((2 * PI - 0) * u = 2 * PI * u); ring).
      apply (is_RInt_const (V := R_NormedModule)).
  - assert (Hj : IZR j <> 0) by (apply not_0_IZR; exact E).
    set (F := fun p => u * sin (IZR j * p) / IZR j - v * cos (IZR j * p) / IZR j).
    replace 0 with (minus (F (2 * PI)) (F 0)) at 2.
    + apply (is_RInt_derive (V := R_CompleteNormedModule) F).
      * intros p _. unfold F. auto_derive; [exact I|]. field. exact Hj.
      * intros p _. apply (@ex_derive_continuous R_AbsRing R_NormedModule). auto_derive. exact I.
    + change (F (2 * PI) - F 0 = 0). unfold F. replace (IZR j * (2 * PI)) with (2 * (PI * IZR j)) by ring.
      rewrite Rmult_0_r, sin_0, cos_0, sin_2a, cos_2a, sin_PI_Z.
      assert (C : cos (PI * IZR j) * cos (PI * IZR j) = 1).
      { pose proof (sin2_cos2 (PI * IZR j)) as Q. unfold Rsqr in Q. rewrite sin_PI_Z in Q. lra. }
      rewrite C. field. exact Hj.
Qed.

Lemma ang_int m k (g h g' h' : R) :
  is_RInt (fun p => (g * cos (INR m * p) + h * sin (INR m * p)) * (g' * cos (INR k * p) + h' * sin (INR k * p))) 0 (2 * PI)
    (if (m =? k)%nat then if (m =? 0)%nat then 2 * PI * (g * g') else PI * (g * g' + h * h') else 0).
Proof.
  set (jp := (Z.of_nat m + Z.of_nat k)%Z). set (jm := (Z.of_nat m - Z.of_nat k)%Z).
  apply (is_RInt_ext (V := R_NormedModule) (fun p =>
    plus ((g * g' - h * h') / 2 * cos (IZR jp * p) + (g * h' + h * g') / 2 * sin (IZR jp * p))
         ((g * g' + h * h') / 2 * cos (IZR jm * p) + (h * g' - g * h') / 2 * sin (IZR jm * p)))).
  - intros p _. change (@eq R
      ((g * g' - h * h') / 2 * cos (IZR jp * p) + (g * h' + h * g') / 2 * sin (IZR jp * p)
      + ((g * g' + h * h') / 2 * cos (IZR jm * p) + (h * g' - g * h') / 2 * sin (IZR jm * p)))
      ((g * cos (INR m * p) + h * sin (INR m * p)) * (g' * cos (INR k * p) + h' * sin (INR k * p)))).
    unfold jp, jm. rewrite plus_IZR, minus_IZR, <- !INR_IZR_INZ, Rmult_plus_distr_r, Rmult_minus_distr_r.
    rewrite cos_plus, sin_plus, cos_minus, sin_minus. field.
  - pose proof (is_RInt_plus (V := R_NormedModule) _ _ _ _ _ _ (trig_int jp ((g * g' - h * h') / 2) ((g * h' + h * g') / 2))
      (trig_int jm ((g * g' + h * h') / 2) ((h * g' - g * h') / 2))) as H.
    match type of H with is_RInt _ _ _ ?v => replace v with
      (if (m =? k)%nat then if (m =? 0)%nat then 2 * PI * (g * g') else PI * (g * g' + h * h') else 0) in H; [exact H|] end.
    match goal with |- _ = plus ?x ?y => change (plus x y) with (x + y) end.
    unfold jp, jm. destruct (Nat.eqb_spec m k) as [<-|E].
    + destruct (Nat.eqb_spec m 0) as [->|E0].
      * cbn. field.
      * destruct (Z.eqb_spec (Z.of_nat m + Z.of_nat m) 0); [lia|]. destruct (Z.eqb_spec (Z.of_nat m - Z.of_nat m) 0); [|lia]. field.
    + destruct (Z.eqb_spec (Z.of_nat m - Z.of_nat k) 0); [lia|]. destruct (Z.eqb_spec (Z.of_nat m + Z.of_nat k) 0); [lia|]. ring.
Qed.

(** ** Colatitude *)
Lemma schmidt_int n k m : (m <= n)%nat -> (m <= k)%nat ->
  is_RInt (fun t => schmidt n m t * schmidt k m t * sin t) 0 PI
    (if Nat.eqb n k then (if Nat.eqb m 0 then 2 else 4) / (2 * INR n + 1) else 0).
Proof.
  intros Hn Hk. rewrite <- schmidt_inner by assumption.
  apply (is_RInt_ext (V := R_NormedModule) (fun t => scal (- (cn n m * cn k m)) (scal (- sin t) (prod m n k (cos t))))).
  - intros t _. change (@eq R (- (cn n m * cn k m) * (- sin t * prod m n k (cos t))) (schmidt n m t * schmidt k m t * sin t)).
    rewrite !schmidt_Q. unfold prod. rewrite <- cos_sin2.
    replace ((sin t ^ 2) ^ m) with (sin t ^ m * sin t ^ m) by (rewrite <- Rpow_mult_distr; f_equal; ring). ring.
  - replace (cn n m * cn k m * J m n k) with (scal (- (cn n m * cn k m)) (- J m n k))
      by (change (- (cn n m * cn k m) * - J m n k = cn n m * cn k m * J m n k); ring).
    apply (is_RInt_scal (V := R_NormedModule)).
    replace (- J m n k) with (RInt (prod m n k) (cos 0) (cos PI)).
    + apply (is_RInt_comp (V := R_CompleteNormedModule) (prod m n k) cos (fun t => - sin t)).
      * intros x _. apply cont_prod.
      * intros x _. split; [apply is_derive_cos|].
        apply (@ex_derive_continuous R_AbsRing R_NormedModule). auto_derive. exact I.
    + rewrite cos_0, cos_PI. unfold J.
      rewrite <- (opp_RInt_swap (V := R_CompleteNormedModule) (prod m n k) (-1) 1); [reflexivity|apply ex_RInt_prod].
Qed.

Lemma cont_rawd n m t : continuous (rawd n m) t.
Proof.
  unfold rawd. apply (@ex_derive_continuous R_AbsRing R_NormedModule).
  eapply ex_derive_mult; [apply ex_derive_const|]. apply (ex_derive_minus (V := R_NormedModule)).
  - apply (ex_derive_mult (fun t => INR m * sin t ^ pred m * cos t) (fun t => Qf n m (cos t))); [auto_derive; exact I|apply ex_derive_Qf_cos].
  - apply (ex_derive_mult (fun t => sin t ^ S m) (fun t => Qf n (S m) (cos t))); [auto_derive; exact I|apply ex_derive_Qf_cos].
Qed.
Lemma cont_reg n m t : continuous (reg n m) t.
Proof.
  unfold reg. apply (@ex_derive_continuous R_AbsRing R_NormedModule).
  apply (ex_derive_mult (fun t => cn n m * sin t ^ pred m) (fun t => Qf n m (cos t))); [auto_derive; exact I|apply ex_derive_Qf_cos].
Qed.
Lemma cont_schmidt n m t : continuous (schmidt n m) t.
Proof. apply (@ex_derive_continuous R_AbsRing R_NormedModule). eexists. apply is_derive_schmidt_raw. Qed.
Lemma cont_sin t : continuous sin t.
Proof. apply (@ex_derive_continuous R_AbsRing R_NormedModule). eexists. apply is_derive_sin. Qed.

Ltac cont := repeat (cbv beta; match goal with
    | |- continuous (fun x => @?f x + @?g x) _ => apply (continuous_plus (V := R_NormedModule) f g)
    | |- continuous (fun x => @?f x - @?g x) _ => apply (continuous_minus (V := R_NormedModule) f g)
    | |- continuous (fun x => @?f x * @?g x) _ => apply (continuous_mult (K := R_AbsRing) f g)
    | |- continuous (fun x => rawd ?n ?m x) ?t => exact (cont_rawd n m t)
    | |- continuous (fun x => reg ?n ?m x) ?t => exact (cont_reg n m t)
    | |- continuous (fun x => schmidt ?n ?m x) ?t => exact (cont_schmidt n m t)
    | |- continuous (fun x => sin x) ?t => exact (cont_sin t)
    | |- continuous (fun x => ?c) _ => apply continuous_const end).

Lemma grad_int n k m : (m <= n)%nat -> (m <= k)%nat ->
  is_RInt (fun t => (rawd n m t * rawd k m t + INR m ^ 2 * (reg n m t * reg k m t)) * sin t) 0 PI
    (INR k * (INR k + 1) * if Nat.eqb n k then (if Nat.eqb m 0 then 2 else 4) / (2 * INR n + 1) else 0).
Proof.
  intros Hn Hk. pose proof (schmidt_int n k m Hn Hk) as S1. set (I1 := if Nat.eqb n k then _ else _) in *.
  set (F := fun t => schmidt n m t * (sin t * rawd k m t)).
  set (dF := fun t => rawd n m t * (sin t * rawd k m t) + schmidt n m t * (INR m ^ 2 * reg k m t - INR k * (INR k + 1) * sin t * schmidt k m t)).
  assert (D : forall t, is_derive F t (dF t)).
  { intros t. unfold F, dF. apply (is_derive_mult (schmidt n m) (fun t => sin t * rawd k m t)); [| |exact Rmult_comm].
    - apply is_derive_schmidt_raw.
    - eapply is_derive_eq; [apply is_derive_sin_rawd|]. apply rawd_ode. exact Hk. }
  assert (S2 : is_RInt dF 0 PI (minus (F PI) (F 0))).
  { apply (is_RInt_derive (V := R_CompleteNormedModule) F).
    - intros t _. apply D.
    - intros t _. unfold dF. cont. }
  apply (is_RInt_ext (V := R_NormedModule) (fun t => plus (dF t) (scal (INR k * (INR k + 1)) (schmidt n m t * schmidt k m t * sin t)))).
  - intros t _. change (@eq R (dF t + INR k * (INR k + 1) * (schmidt n m t * schmidt k m t * sin t))
      ((rawd n m t * rawd k m t + INR m ^ 2 * (reg n m t * reg k m t)) * sin t)). unfold dF.
    destruct m as [|m].
    + cbn [INR]. ring.
    + rewrite <- (reg_sin n (S m) t) by lia. ring.
  - replace (INR k * (INR k + 1) * I1) with (plus (minus (F PI) (F 0)) (scal (INR k * (INR k + 1)) I1)).
    + apply (is_RInt_plus (V := R_NormedModule)); [exact S2|]. apply (is_RInt_scal (V := R_NormedModule)). exact S1.
    + change (F PI - F 0 + INR k * (INR k + 1) * I1 = INR k * (INR k + 1) * I1). unfold F. rewrite sin_PI, sin_0. ring.
Qed.

Lemma cross_int n k m : is_RInt (fun t => INR m * (rawd n m t * reg k m t + reg n m t * rawd k m t) * sin t) 0 PI 0.
Proof.
  set (F := fun t => INR m * (schmidt n m t * schmidt k m t)).
  set (dF := fun t => INR m * (rawd n m t * schmidt k m t + schmidt n m t * rawd k m t)).
  assert (S2 : is_RInt dF 0 PI (minus (F PI) (F 0))).
  { apply (is_RInt_derive (V := R_CompleteNormedModule) F).
    - intros t _. unfold F, dF. apply is_derive_scalR.
      apply (is_derive_mult (schmidt n m) (schmidt k m)); [apply is_derive_schmidt_raw|apply is_derive_schmidt_raw|exact Rmult_comm].
    - intros t _. unfold dF. cont. }
  replace 0 with (minus (F PI) (F 0)) at 2.
  - apply (is_RInt_ext (V := R_NormedModule) dF); [|exact S2]. intros t _. unfold dF.
    match goal with |- ?a = ?b => change (@eq R a b) end. destruct m as [|m].
    + cbn [INR]. ring.
    + rewrite <- (reg_sin n (S m) t), <- (reg_sin k (S m) t) by lia. ring.
  - change (F PI - F 0 = 0). unfold F. destruct m as [|m]; [cbn [INR]; ring|]. rewrite !schmidt_Q, sin_PI, sin_0. cbn [pow]. ring.
Qed.

(** ** Elementary fields: degree, order, cosine and sine coefficient; factors
    of the radial, poloidal horizontal and toroidal parts. *)
Record elem := mkelem { e_n : nat; e_m : nat; e_g : R; e_h : R; e_c : R; e_r : R; e_t : R }.
Definition eang (e : elem) (p : R) := e_g e * cos (INR (e_m e) * p) + e_h e * sin (INR (e_m e) * p).
Definition eang' (e : elem) (p : R) := e_g e * sin (INR (e_m e) * p) - e_h e * cos (INR (e_m e) * p).
Definition vr (e : elem) (t p : R) := e_c e * eang e p * schmidt (e_n e) (e_m e) t.
Definition vt (e : elem) (t p : R) :=
  - e_r e * eang e p * rawd (e_n e) (e_m e) t - e_t e * (INR (e_m e) * eang' e p * reg (e_n e) (e_m e) t).
Definition vp (e : elem) (t p : R) :=
  e_r e * (INR (e_m e) * eang' e p * reg (e_n e) (e_m e) t) - e_t e * eang e p * rawd (e_n e) (e_m e) t.
Definition dot (e f : elem) (t p : R) := vr e t p * vr f t p + vt e t p * vt f t p + vp e t p * vp f t p.

Definition eip (e f : elem) : R := e_g e * e_g f + (if (e_m e =? 0)%nat then 0 else e_h e * e_h f).
Definition epair (e f : elem) : R :=
  if ((e_n e =? e_n f) && (e_m e =? e_m f))%nat%bool
  then eip e f * (e_c e * e_c f + INR (e_n e) * (INR (e_n e) + 1) * (e_r e * e_r f + e_t e * e_t f)) / (2 * INR (e_n e) + 1)
  else 0.

Lemma eang'_eq e p : eang' e p = - e_h e * cos (INR (e_m e) * p) + e_g e * sin (INR (e_m e) * p).
Proof. unfold eang'. ring. Qed.

Lemma dot_mean e f : (e_m e <= e_n e)%nat -> (e_m f <= e_n f)%nat -> sphere_mean (dot e f) (epair e f).
Proof.
  destruct e as [n m g h c r u]. destruct f as [k l g' h' c' r' u']. cbn [e_n e_m]. intros Hn Hk.
  pose proof (ang_int m l g h g' h') as I1. pose proof (ang_int m l (- h) g (- h') g') as I2.
  pose proof (ang_int m l g h (- h') g') as I3. pose proof (ang_int m l (- h) g g' h') as I4.
  set (v1 := if (m =? l)%nat then _ else _) in I1. set (v2 := if (m =? l)%nat then _ else _) in I2.
  set (v3 := if (m =? l)%nat then _ else _) in I3. set (v4 := if (m =? l)%nat then _ else _) in I4.
  exists (fun t => c * c' * (schmidt n m t * schmidt k l t) * v1
      + (r * r' + u * u') * (rawd n m t * rawd k l t * v1 + INR m * INR l * (reg n m t * reg k l t) * v2)
      + (r * u' - u * r') * (INR l * (rawd n m t * reg k l t) * v3 - INR m * (reg n m t * rawd k l t) * v4)).
  split.
  - intros t _.
    pose proof (is_RInt_lin (c * c' * (schmidt n m t * schmidt k l t) + (r * r' + u * u') * (rawd n m t * rawd k l t)) _ _ _ _ _ _ I1
      (is_RInt_lin ((r * r' + u * u') * (INR m * INR l * (reg n m t * reg k l t))) _ _ _ _ _ _ I2
      (is_RInt_lin ((r * u' - u * r') * (INR l * (rawd n m t * reg k l t))) _ _ _ _ _ _ I3
      (is_RInt_lin (- ((r * u' - u * r') * (INR m * (reg n m t * rawd k l t)))) _ _ _ _ _ _ I4 (is_RInt_0 0 (2 * PI) 0 eq_refl))))) as X.
    cbv beta in X. eapply is_RInt_eq; [eapply (is_RInt_ext (V := R_NormedModule)); [|exact X]|].
    + intros p _. unfold dot, vr, vt, vp. rewrite !eang'_eq. unfold eang. cbn [e_n e_m e_g e_h e_c e_r e_t].
      match goal with |- ?a = ?b => change (@eq R a b) end.
      generalize (cos (INR m * p)) (sin (INR m * p)) (cos (INR l * p)) (sin (INR l * p)) (schmidt n m t) (schmidt k l t)
        (rawd n m t) (rawd k l t) (reg n m t) (reg k l t). intros. ring.
    + match goal with |- ?a = ?b => change (@eq R a b) end. generalize v1 v2 v3 v4. intros. ring.
  - unfold epair, eip. cbn [e_n e_m e_g e_h e_c e_r e_t].
    destruct (Nat.eqb_spec m l) as [E|E].
    2:{ rewrite andb_false_r. subst v1 v2 v3 v4.
        apply (is_RInt_ext (V := R_NormedModule) (fun _ => 0)).
        - intros t _. match goal with |- ?a = ?b => change (@eq R a b) end. ring.
        - apply is_RInt_0. ring. }
    subst l. rewrite andb_true_r.
    pose proof (schmidt_int n k m Hn Hk) as S1. pose proof (grad_int n k m Hn Hk) as S2. pose proof (cross_int n k m) as S3.
    set (w := if Nat.eqb n k then _ else _) in S1, S2.
    pose proof (is_RInt_lin (c * c' * v1) _ _ _ _ _ _ S1 (is_RInt_lin ((r * r' + u * u') * v1) _ _ _ _ _ _ S2
      (is_RInt_lin ((r * u' - u * r') * v3) _ _ _ _ _ _ S3 (is_RInt_0 0 PI 0 eq_refl)))) as X.
    cbv beta in X. eapply is_RInt_eq; [eapply (is_RInt_ext (V := R_NormedModule)); [|exact X]|].
    + intros t _. match goal with |- ?a = ?b => change (@eq R a b) end. subst v1 v2 v3 v4. cbn [pow]. clear.
      generalize (schmidt n m t) (schmidt k m t) (rawd n m t) (rawd k m t) (reg n m t) (reg k m t) (sin t). intros.
      destruct (Nat.eqb_spec m 0) as [->|E0]; [cbn [INR]; ring|]. generalize (INR m). intros. ring.
    + match goal with |- ?a = ?b => change (@eq R a b) end. subst w v1. pose proof (pos_INR n). destruct (Nat.eqb_spec n k) as [<-|]; [|ring].
      destruct (Nat.eqb_spec m 0); field; lra.
Qed.

(** ** Sums of elementary fields *)
Definition esum (f : elem -> R -> R -> R) (E : list elem) (t p : R) : R := Rsum (map (fun e => f e t p) E).
Definition esq (E : list elem) (t p : R) : R := esum vr E t p ^ 2 + esum vt E t p ^ 2 + esum vp E t p ^ 2.

Lemma Rsum_sq {A} (f : A -> R) l : Rsum (map f l) ^ 2 = Rsum (map (fun a => Rsum (map (fun b => f a * f b) l)) l).
Proof.
  cbn [pow]. rewrite Rmult_1_r. rewrite <- Rsum_map_scal. apply Rsum_map_ext. intros a _.
  rewrite Rsum_map_scal. ring.
Qed.

Lemma esq_mean E : (forall e, In e E -> (e_m e <= e_n e)%nat) ->
  sphere_mean (esq E) (Rsum (map (fun e => Rsum (map (fun f => epair e f) E)) E)).
Proof.
  intros H.
  apply (sphere_mean_ext (fun t p => Rsum (map (fun e => Rsum (map (fun f => dot e f t p) E)) E))).
  - intros t p _. unfold esq, esum. rewrite !Rsum_sq, <- !Rsum_map_plus. apply Rsum_map_ext. intros e _.
    rewrite <- !Rsum_map_plus. apply Rsum_map_ext. intros f _. reflexivity.
  - apply (sphere_mean_Rsum (fun e t p => Rsum (map (fun f => dot e f t p) E))). intros e He.
    apply (sphere_mean_Rsum (fun f t p => dot e f t p)). intros f Hf. apply dot_mean; apply H; assumption.
Qed.
