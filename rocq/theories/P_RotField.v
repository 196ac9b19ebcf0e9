(** C147: the field of rotated coefficients is the rotated field. *)
From Coq Require Import Reals List Arith ZArith Bool Lia Lra.
From Coquelicot Require Import Coquelicot.
From Verif Require Import M_Prelude Spec_Legendre Spec_Field Spec_Coord M_Coord P_Coord P_Coord2 P_Coord3 M_Legendre P_Legendre P_Legendre2 P_LegendreTab
  M_Synth P_Synth P_SynthClosed.
Import ListNotations.
Open Scope R_scope.

Ltac rring := match goal with |- ?a = ?b => change (@eq R a b) end; ring.
(** ** Functions on space and their gradients *)
Definition vderive (u : R -> vec3) (s : R) (u' : vec3) : Prop :=
  is_derive (fun x => vx (u x)) s (vx u') /\ is_derive (fun x => vy (u x)) s (vy u') /\ is_derive (fun x => vz (u x)) s (vz u').
Definition grad3 (F : vec3 -> R) (G : vec3 -> vec3) : Prop :=
  forall u s u', vderive u s u' -> is_derive (fun x => F (u x)) s (vdot (G (u s)) u').
Lemma mulR (f g : R -> R) x a b : is_derive f x a -> is_derive g x b -> is_derive (fun y => f y * g y) x (a * g x + f x * b).
Proof. intros A B. apply is_derive_Reals. apply is_derive_Reals in A. apply is_derive_Reals in B. exact (derivable_pt_lim_mult f g x a b A B). Qed.
Lemma compR (f g : R -> R) x a b : is_derive f (g x) a -> is_derive g x b -> is_derive (fun y => f (g y)) x (a * b).
Proof. intros A B. apply is_derive_Reals. apply is_derive_Reals in A. apply is_derive_Reals in B. exact (derivable_pt_lim_comp g f x b a B A). Qed.
Lemma has_mul F G F' G' : grad3 F F' -> grad3 G G' -> grad3 (fun v => F v * G v) (fun v => vadd (vscale (G v) (F' v)) (vscale (F v) (G' v))).
Proof.
  intros A B u s u' H. eapply is_derive_eq; [apply (mulR (fun x => F (u x)) (fun x => G (u x))); [apply A, H|apply B, H]|].
  match goal with |- ?a = ?b => change (@eq R a b) end. unfold vdot, vadd, vscale. cbn [vx vy vz]. ring.
Qed.
Lemma has_add F G F' G' : grad3 F F' -> grad3 G G' -> grad3 (fun v => F v + G v) (fun v => vadd (F' v) (G' v)).
Proof. intros A B u s u' H. rewrite vdot_add_l. apply (is_derive_addR (fun x => F (u x)) (fun x => G (u x))); [apply A, H|apply B, H]. Qed.
Lemma has_scal c F F' : grad3 F F' -> grad3 (fun v => c * F v) (fun v => vscale c (F' v)).
Proof. intros A u s u' H. rewrite vdot_scale_l. apply (is_derive_scalR (fun x => F (u x))). apply A, H. Qed.
Lemma has_const c : grad3 (fun _ => c) (fun _ => vzero).
Proof. intros u s u' H. eapply is_derive_eq; [apply (@is_derive_const R_AbsRing R_NormedModule)|]. unfold vdot, vzero, zero; cbn. rring. Qed.
Lemma has_x : grad3 vx (fun _ => V3 1 0 0).
Proof. intros u s u' (H & _). eapply is_derive_eq; [exact H|]. unfold vdot; cbn. rring. Qed.
Lemma has_y : grad3 vy (fun _ => V3 0 1 0).
Proof. intros u s u' (_ & H & _). eapply is_derive_eq; [exact H|]. unfold vdot; cbn. rring. Qed.
Lemma has_z f f' : (forall x, is_derive f x (f' x)) -> grad3 (fun v => f (vz v)) (fun v => V3 0 0 (f' (vz v))).
Proof. intros A u s u' (_ & _ & H). eapply is_derive_eq; [apply (compR f (fun x => vz (u x))); [apply A|exact H]|]. unfold vdot; cbn. rring. Qed.
Lemma has_sum {A} (F : A -> vec3 -> R) l : (forall a, exists G, grad3 (F a) G) -> exists G, grad3 (fun v => Rsum (map (fun a => F a v) l)) G.
Proof.
  intros H. induction l as [|a l (G & IH)]; [exists (fun _ => vzero); exact (has_const 0)|]. destruct (H a) as (G1 & H1).
  exists (fun v => vadd (G1 v) (G v)). cbn [map Rsum fold_right]. exact (has_add _ _ _ _ H1 IH).
Qed.

(** ** Real and imaginary part of (x + iy)^m *)
Fixpoint cs (m : nat) (x y : R) : R * R :=
  match m with O => (1, 0) | S m => let '(c, s) := cs m x y in (x * c - y * s, x * s + y * c) end.
Lemma cs_grad m : exists G1 G2, grad3 (fun v => fst (cs m (vx v) (vy v))) G1 /\ grad3 (fun v => snd (cs m (vx v) (vy v))) G2.
Proof.
  induction m as [|m (G1 & G2 & A & B)].
  - exists (fun _ => vzero), (fun _ => vzero). split; [exact (has_const 1)|exact (has_const 0)].
  - eexists. eexists. split.
    + intros u s u' H. eapply is_derive_ext; [|exact (has_add _ _ _ _ (has_mul _ _ _ _ has_x A) (has_scal (-1) _ _ (has_mul _ _ _ _ has_y B)) u s u' H)].
      intros t. cbn. destruct (cs m (vx (u t)) (vy (u t))). cbn. rring.
    + intros u s u' H. eapply is_derive_ext; [|exact (has_add _ _ _ _ (has_mul _ _ _ _ has_x B) (has_mul _ _ _ _ has_y A) u s u' H)].
      intros t. cbn. destruct (cs m (vx (u t)) (vy (u t))). cbn. rring.
Qed.
(** the direction and the tangents, angles in radians *)
Definition du (t p : R) : vec3 := V3 (sin t * cos p) (sin t * sin p) (cos t).
Definition et (t p : R) : vec3 := V3 (cos t * cos p) (cos t * sin p) (- sin t).
Definition ep (p : R) : vec3 := V3 (- sin p) (cos p) 0.
Lemma INR_S_mult m p : INR (S m) * p = INR m * p + p.
Proof. rewrite S_INR. ring. Qed.
Lemma cs_du m t p : cs m (sin t * cos p) (sin t * sin p) = (sin t ^ m * cos (INR m * p), sin t ^ m * sin (INR m * p)).
Proof.
  induction m as [|m IH]; [cbn [cs INR pow]; rewrite Rmult_0_l, cos_0, sin_0; f_equal; ring|].
  cbn [cs]. rewrite IH. rewrite !INR_S_mult, cos_plus, sin_plus. cbn [pow]. f_equal; ring.
Qed.
Definition line (t p s : R) : vec3 := vadd (du t p) (vscale s (ep p)).
Lemma line_0 t p : line t p 0 = du t p.
Proof. apply vec3_eq; cbn; ring. Qed.
Lemma line_derive t p s : vderive (line t p) s (ep p).
Proof. unfold vderive, line, du, ep, vadd, vscale. cbn [vx vy vz]. (split; [|split]); auto_derive; try exact I; ring. Qed.
Lemma cs_line m t p :
  is_derive (fun s => fst (cs m (vx (line t p s)) (vy (line t p s)))) 0 (- (INR m * sin t ^ pred m * sin (INR m * p))) /\
  is_derive (fun s => snd (cs m (vx (line t p s)) (vy (line t p s)))) 0 (INR m * sin t ^ pred m * cos (INR m * p)).
Proof.
  induction m as [|m (A & B)].
  - cbn [cs fst snd INR]. split; (eapply is_derive_eq; [apply (@is_derive_const R_AbsRing R_NormedModule)|unfold zero; cbn; ring]).
  - destruct (line_derive t p 0) as (X & Y & _).
    set (xl := fun x => vx (line t p x)) in *. set (yl := fun x => vy (line t p x)) in *.
    set (cl := fun s => fst (cs m (vx (line t p s)) (vy (line t p s)))) in *. set (sl := fun s => snd (cs m (vx (line t p s)) (vy (line t p s)))) in *.
    pose proof (mulR xl cl 0 _ _ X A) as XA. pose proof (mulR xl sl 0 _ _ X B) as XB. pose proof (mulR yl cl 0 _ _ Y A) as YA. pose proof (mulR yl sl 0 _ _ Y B) as YB.
    assert (V0 : cs m (vx (line t p 0)) (vy (line t p 0)) = (sin t ^ m * cos (INR m * p), sin t ^ m * sin (INR m * p))) by (rewrite line_0; apply cs_du).
    assert (P : INR m * sin t ^ pred m * sin t = INR m * sin t ^ m) by (destruct m; [cbn; ring|cbn [pred pow]; ring]).
    assert (X0 : vx (line t p 0) = sin t * cos p) by (rewrite line_0; reflexivity).
    assert (Y0 : vy (line t p 0) = sin t * sin p) by (rewrite line_0; reflexivity).
    split.
    + eapply is_derive_ext; [|eapply is_derive_eq; [exact (is_derive_addR _ _ 0 _ _ XA (is_derive_scalR _ 0 (-1) _ YB))|]].
      * intros s. unfold xl, yl, cl, sl. cbn [cs]. destruct (cs m (vx (line t p s)) (vy (line t p s))). cbn [fst snd]. rring.
      * unfold xl, yl, cl, sl. rewrite V0, X0, Y0. cbn [ep vx vy fst snd pred]. rewrite !INR_S_mult, sin_plus. 
        match goal with |- ?a = ?b => change (@eq R a b) end. transitivity (- sin p * (sin t ^ m * cos (INR m * p)) - cos p * (sin t ^ m * sin (INR m * p)) - (INR m * sin t ^ pred m * sin t) * (cos p * sin (INR m * p) + sin p * cos (INR m * p))); [ring|].
        rewrite P. ring.
    + eapply is_derive_ext; [|eapply is_derive_eq; [exact (is_derive_addR _ _ 0 _ _ XB YA)|]].
      * intros s. unfold xl, yl, cl, sl. cbn [cs]. destruct (cs m (vx (line t p s)) (vy (line t p s))). cbn [fst snd]. rring.
      * unfold xl, yl, cl, sl. rewrite V0, X0, Y0. cbn [ep vx vy fst snd pred]. rewrite !INR_S_mult, cos_plus.
        match goal with |- ?a = ?b => change (@eq R a b) end. transitivity (- sin p * (sin t ^ m * sin (INR m * p)) + cos p * (sin t ^ m * cos (INR m * p)) + (INR m * sin t ^ pred m * sin t) * (cos p * cos (INR m * p) - sin p * sin (INR m * p))); [ring|].
        rewrite P. ring.
Qed.

(** ** The function of degree n on space *)
Section Degree.
Variables (n : nat) (g h : nat -> R).
Definition harm (v : vec3) : R := Rsum (map (fun m => cn n m * Qf n m (vz v) * (g m * fst (cs m (vx v) (vy v)) + h m * snd (cs m (vx v) (vy v)))) (range_incl 0 n)).
Definition onsphere (t p : R) : R := Rsum (map (fun m => ang p g h m * schmidt n m t) (range_incl 0 n)).
Lemma harm_grad : exists G, grad3 harm G.
Proof.
  apply has_sum. intros m. destruct (cs_grad m) as (G1 & G2 & A & B). eexists.
  apply (has_mul (fun v => cn n m * Qf n m (vz v)) (fun v => g m * fst (cs m (vx v) (vy v)) + h m * snd (cs m (vx v) (vy v)))).
  - apply has_scal, (has_z (Qf n m) (Qf n (S m))). intros x. apply is_derive_Qf.
  - apply has_add; apply has_scal; eassumption.
Qed.
Lemma harm_du t p : harm (du t p) = onsphere t p.
Proof.
  apply Rsum_map_ext. intros m _. cbn [du vx vy vz]. rewrite cs_du, schmidt_Q. cbn [fst snd]. unfold ang. ring.
Qed.
Lemma harm_et G t p : grad3 harm G -> vdot (G (du t p)) (et t p) = Rsum (map (fun m => ang p g h m * rawd n m t) (range_incl 0 n)).
Proof.
  intros H. assert (A : is_derive (fun x => harm (du x p)) t (vdot (G (du t p)) (et t p))).
  { apply (H (fun x => du x p)). unfold vderive, du, et. cbn [vx vy vz]. (split; [|split]); auto_derive; try exact I; ring. }
  assert (B : is_derive (fun x => harm (du x p)) t (Rsum (map (fun m => ang p g h m * rawd n m t) (range_incl 0 n)))).
  { apply (is_derive_ext (fun x => onsphere x p)); [intros x; symmetry; apply harm_du|]. apply (is_derive_Rsum (fun m x => ang p g h m * schmidt n m x)).
    intros m _. apply is_derive_scalR, is_derive_schmidt_raw. }
  rewrite <- (is_derive_unique _ _ _ A). apply is_derive_unique, B.
Qed.
Lemma harm_ep G t p : grad3 harm G -> vdot (G (du t p)) (ep p) = Rsum (map (fun m => - ang' p g h m * (INR m * reg n m t)) (range_incl 0 n)).
Proof.
  intros H. pose proof (H (line t p) 0 (ep p) (line_derive t p 0)) as A. rewrite line_0 in A.
  assert (B : is_derive (fun s => harm (line t p s)) 0 (Rsum (map (fun m => - ang' p g h m * (INR m * reg n m t)) (range_incl 0 n)))).
  { apply (is_derive_Rsum (fun m s => cn n m * Qf n m (vz (line t p s)) * (g m * fst (cs m (vx (line t p s)) (vy (line t p s))) + h m * snd (cs m (vx (line t p s)) (vy (line t p s)))))).
    intros m _. destruct (cs_line m t p) as (X & Y).
    apply (is_derive_ext (fun s => cn n m * Qf n m (cos t) * (g m * fst (cs m (vx (line t p s)) (vy (line t p s))) + h m * snd (cs m (vx (line t p s)) (vy (line t p s)))))).
    { intros s. f_equal. f_equal. unfold line, du, ep, vadd, vscale. cbn [vz]. f_equal. ring. }
    apply (is_derive_eq _ _ (cn n m * Qf n m (cos t) * (g m * - (INR m * sin t ^ pred m * sin (INR m * p)) + h m * (INR m * sin t ^ pred m * cos (INR m * p))))).
    - apply is_derive_scalR. apply is_derive_addR; apply is_derive_scalR; assumption.
    - unfold ang', reg. rring. }
  rewrite <- (is_derive_unique _ _ _ A). apply is_derive_unique, B.
Qed.
End Degree.

(** ** A degree in two systems of axes *)
Lemma vderive_resolve e1 e2 e3 u s u' : vderive u s u' -> vderive (fun x => resolve e1 e2 e3 (u x)) s (resolve e1 e2 e3 u').
Proof.
  intros (A & B & C). unfold vderive, resolve. cbn [vx vy vz]. unfold vdot.
  (split; [|split]); (apply (is_derive_addR (fun x => _ * vx (u x) + _ * vy (u x)) (fun x => _ * vz (u x))); [apply (is_derive_addR (fun x => _ * vx (u x)) (fun x => _ * vy (u x)))|]; apply is_derive_scalR; assumption).
Qed.
Lemma two_systems n g h g' h' e1 e2 e3 G G' t p : (forall t p, harm n g' h' (du t p) = harm n g h (resolve e1 e2 e3 (du t p))) ->
  grad3 (harm n g h) G -> grad3 (harm n g' h') G' ->
  vdot (G' (du t p)) (et t p) = vdot (G (resolve e1 e2 e3 (du t p))) (resolve e1 e2 e3 (et t p)) /\
  vdot (G' (du t p)) (ep p) = vdot (G (resolve e1 e2 e3 (du t p))) (resolve e1 e2 e3 (ep p)).
Proof.
  intros E H H'.
  assert (GEN : forall u s u', (forall x, exists t p, u x = du t p) -> vderive u s u' ->
    vdot (G' (u s)) u' = vdot (G (resolve e1 e2 e3 (u s))) (resolve e1 e2 e3 u')).
  { intros u s u' D V. pose proof (H' u s u' V) as A. pose proof (H _ s _ (vderive_resolve e1 e2 e3 u s u' V)) as B. cbv beta in B.
    rewrite <- (is_derive_unique _ _ _ A), <- (is_derive_unique _ _ _ B). apply Derive_ext. intros x. destruct (D x) as (t1 & p1 & ->). apply E. }
  assert (ET : forall t p, vdot (G' (du t p)) (et t p) = vdot (G (resolve e1 e2 e3 (du t p))) (resolve e1 e2 e3 (et t p))).
  { intros t1 p1. apply (GEN (fun x => du x p1)); [intros x; exists x, p1; reflexivity|]. unfold vderive, du, et. cbn [vx vy vz]. (split; [|split]); auto_derive; try exact I; ring. }
  split; [apply ET|]. destruct (Req_dec (sin t) 0) as [Z|NZ].
  - assert (C : cos t * cos t = 1) by (pose proof (sin2_cos2 t) as X; unfold Rsqr in X; rewrite Z in X; lra).
    assert (D1 : du t (p + PI / 2) = du t p) by (unfold du; rewrite Z, !Rmult_0_l; reflexivity).
    assert (D2 : et t (p + PI / 2) = vscale (cos t) (ep p)).
    { unfold et, ep, vscale. cbn [vx vy vz]. rewrite cos_plus, sin_plus, cos_PI2, sin_PI2, Z. f_equal; ring. }
    pose proof (ET t (p + PI / 2)) as X. rewrite D1, D2 in X.
    assert (RS : resolve e1 e2 e3 (vscale (cos t) (ep p)) = vscale (cos t) (resolve e1 e2 e3 (ep p))) by (unfold resolve; rewrite !vdot_scale_r; reflexivity).
    rewrite RS, !vdot_scale_r in X. apply (f_equal (Rmult (cos t))) in X. rewrite <- !Rmult_assoc, C, !Rmult_1_l in X. exact X.
  - assert (X : vdot (G' (du t p)) (vscale (sin t) (ep p)) = vdot (G (resolve e1 e2 e3 (du t p))) (resolve e1 e2 e3 (vscale (sin t) (ep p)))).
    { apply (GEN (fun x => du t x)); [intros x; exists t, x; reflexivity|]. unfold vderive, du, ep, vscale. cbn [vx vy vz]. (split; [|split]); auto_derive; try exact I; ring. }
    assert (RS : resolve e1 e2 e3 (vscale (sin t) (ep p)) = vscale (sin t) (resolve e1 e2 e3 (ep p))) by (unfold resolve; rewrite !vdot_scale_r; reflexivity).
    rewrite RS, !vdot_scale_r in X. apply Rmult_eq_reg_l in X; [exact X|exact NZ].
Qed.
Lemma frame_rho t p : right_handed_orthonormal (du t p) (et t p) (ep p).
Proof.
  pose proof (sin2_cos2 t) as A. pose proof (sin2_cos2 p) as B. unfold Rsqr in A, B.
  unfold right_handed_orthonormal, unit_vec, vdot, vprod, du, et, ep. cbn [vx vy vz].
  repeat split; try ring.
  - transitivity (sin t * sin t * (sin p * sin p + cos p * cos p) + cos t * cos t); [ring|]. rewrite B. lra.
  - transitivity (cos t * cos t * (sin p * sin p + cos p * cos p) + sin t * sin t); [ring|]. rewrite B. lra.
  - rewrite <- B. ring.
  - transitivity (sin t * cos t * (sin p * sin p + cos p * cos p) - sin t * cos t); [ring|]. rewrite B. ring.
  - f_equal.
    + transitivity (- sin p * (sin t * sin t + cos t * cos t)); [ring|]. rewrite A. ring.
    + transitivity (cos p * (sin t * sin t + cos t * cos t)); [ring|]. rewrite A. ring.
    + ring.
Qed.
(** the tangential part of a vector in two systems *)
Lemma tangential l e1 e2 e3 t p t' p' : right_handed_orthonormal e1 e2 e3 -> du t' p' = resolve e1 e2 e3 (du t p) ->
  vadd (vscale (vdot l (et t' p')) (et t' p')) (vscale (vdot l (ep p')) (ep p')) =
  resolve e1 e2 e3 (vadd (vscale (vdot l (resolve e1 e2 e3 (et t p))) (et t p)) (vscale (vdot l (resolve e1 e2 e3 (ep p))) (ep p))).
Proof.
  intros H D. set (k := compose e1 e2 e3 l).
  assert (K : forall w, vdot l (resolve e1 e2 e3 w) = vdot k w) by (intros w; symmetry; apply compose_dot_resolve). rewrite !K.
  assert (RK : resolve e1 e2 e3 k = l) by (apply resolve_compose; exact H).
  pose proof (rho_expand _ _ _ l (frame_rho t' p')) as X. pose proof (rho_expand _ _ _ k (frame_rho t p)) as Y.
  unfold compose, resolve in X, Y. cbn [vx vy vz] in X, Y.
  assert (UU : vdot (du t' p') l = vdot (du t p) k). { rewrite vdot_comm, (vdot_comm (du t p)), D, K. reflexivity. }
  rewrite !(vdot_comm l), !(vdot_comm k) in *.
  set (a := vdot (et t' p') l) in *. set (b := vdot (ep p') l) in *. set (a0 := vdot (et t p) k) in *. set (b0 := vdot (ep p) k) in *.
  transitivity (vadd l (vscale (- vdot (du t' p') l) (du t' p'))).
  - rewrite <- X at 1. apply vec3_eq; cbn; ring.
  - rewrite UU, D. rewrite <- RK at 1. rewrite <- Y at 1. unfold resolve. rewrite !vdot_add_r, !vdot_scale_r. apply vec3_eq; cbn; ring.
Qed.
