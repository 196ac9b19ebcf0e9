(** The power spectrum is the mean square field over the sphere. *)
From Coq Require Import Reals List Arith ZArith String Bool Lia Lra.
From Coquelicot Require Import Coquelicot.
From Verif Require Import M_Prelude M_ND Spec_Legendre Spec_Field Spec_Power P_Legendre P_Legendre2 P_Ortho M_Synth M_SynthArr M_Spectrum
  P_Synth P_SynthArr P_SynthClosed P_Layout P_Laplace P_SynthProps P_SynthProps2 P_Spectrum3 P_Power.
Import ListNotations.
Open Scope R_scope.

Definition edot (E E' : list elem) (t p : R) : R :=
  esum vr E t p * esum vr E' t p + esum vt E t p * esum vt E' t p + esum vp E t p * esum vp E' t p.
Definition epsum (E E' : list elem) : R := Rsum (map (fun e => Rsum (map (fun f => epair e f) E')) E).
Definition good (E : list elem) : Prop := forall e, In e E -> (e_m e <= e_n e)%nat.

Lemma Rsum_mult {A B} (f : A -> R) (g : B -> R) l k :
  Rsum (map f l) * Rsum (map g k) = Rsum (map (fun a => Rsum (map (fun b => f a * g b) k)) l).
Proof.
  rewrite Rmult_comm, <- Rsum_map_scal. apply Rsum_map_ext. intros a _. rewrite Rsum_map_scal. ring.
Qed.

Lemma edot_mean E E' : good E -> good E' -> sphere_mean (edot E E') (epsum E E').
Proof.
  intros H H'.
  apply (sphere_mean_ext (fun t p => Rsum (map (fun e => Rsum (map (fun f => dot e f t p) E')) E))).
  - intros t p _. unfold edot, esum. rewrite !Rsum_mult, <- !Rsum_map_plus. apply Rsum_map_ext. intros e _.
    rewrite <- !Rsum_map_plus. apply Rsum_map_ext. intros f _. reflexivity.
  - apply (sphere_mean_Rsum (fun e t p => Rsum (map (fun f => dot e f t p) E'))). intros e He.
    apply (sphere_mean_Rsum (fun f t p => dot e f t p)). intros f Hf. apply dot_mean; [apply H|apply H']; assumption.
Qed.

Definition fam (c r u : nat -> R) (nmin nmax : nat) (g h : nat -> nat -> R) : list elem :=
  flat_map (fun n => map (fun m => mkelem n m (g n m) (h n m) (c n) (r n) (u n)) (range_incl 0 n)) (range_incl nmin nmax).

Lemma fam_good c r u nmin nmax g h : good (fam c r u nmin nmax g h).
Proof.
  intros e He. unfold fam in He. apply in_flat_map in He. destruct He as (n & _ & He). apply in_map_iff in He.
  destruct He as (m & <- & Hm). apply range_incl_spec in Hm. cbn [e_m e_n]. lia.
Qed.

Lemma Rsum_flat_map {A B} (f : B -> R) (F : A -> list B) l :
  Rsum (map f (flat_map F l)) = Rsum (map (fun a => Rsum (map f (F a))) l).
Proof.
  induction l as [|a l IH]; [reflexivity|]. cbn [flat_map map]. rewrite map_app, P_Synth.Rsum_app, IH. reflexivity.
Qed.

Lemma Rsum_pick (f : nat -> R) n l : NoDup l -> In n l -> (forall k, In k l -> k <> n -> f k = 0) -> Rsum (map f l) = f n.
Proof.
  induction l as [|a l IH]; intros D Hi H; [destruct Hi|]. inversion D; subst. cbn [map]. rewrite Rsum_cons.
  destruct Hi as [->|Hi].
  - rewrite Rsum_map_0; [ring|]. intros k Hk. apply H; [right; exact Hk|]. intros ->. contradiction.
  - rewrite (H a); [|left; reflexivity|intros ->; contradiction]. rewrite IH; [ring|assumption|exact Hi|].
    intros k Hk. apply H. right; exact Hk.
Qed.

Lemma range_NoDup a b : NoDup (range_incl a b).
Proof. apply seq_NoDup. Qed.

(** Sum over the orders of one degree. *)
Definition dsum (g h g' h' : nat -> nat -> R) (n : nat) : R :=
  Rsum (map (fun m => g n m * g' n m + (if (m =? 0)%nat then 0 else h n m * h' n m)) (range_incl 0 n)).

Lemma epsum_fam c r u c' r' u' nmin nmax g h g' h' :
  epsum (fam c r u nmin nmax g h) (fam c' r' u' nmin nmax g' h') =
  Rsum (map (fun n => (c n * c' n + INR n * (INR n + 1) * (r n * r' n + u n * u' n)) / (2 * INR n + 1) * dsum g h g' h' n)
    (range_incl nmin nmax)).
Proof.
  unfold epsum, fam. rewrite Rsum_flat_map. apply Rsum_map_ext. intros n Hn.
  unfold dsum. rewrite <- Rsum_map_scal, map_map. apply Rsum_map_ext. intros m Hm.
  rewrite Rsum_flat_map. rewrite (Rsum_pick _ n); [|apply range_NoDup|exact Hn|].
  - rewrite map_map, (Rsum_pick _ m); [|apply range_NoDup|exact Hm|].
    + unfold epair, eip. cbn [e_n e_m e_g e_h e_c e_r e_t]. rewrite !Nat.eqb_refl. cbn [andb].
      destruct (m =? 0)%nat; unfold Rdiv; ring.
    + intros k _ Hk. unfold epair. cbn [e_n e_m e_g e_h e_c e_r e_t]. destruct (Nat.eqb_spec m k); [congruence|].
      rewrite andb_false_r. reflexivity.
  - intros k _ Hk. rewrite map_map. apply Rsum_map_0. intros l _. unfold epair. cbn [e_n e_m e_g e_h e_c e_r e_t].
    destruct (Nat.eqb_spec n k); [congruence|]. reflexivity.
Qed.

(** Families without common power. *)
Lemma epsum_zero c r u c' r' u' nmin nmax nmin' nmax' g h g' h' :
  (forall n, (nmin <= n)%nat -> c n * c' n + INR n * (INR n + 1) * (r n * r' n + u n * u' n) = 0) ->
  epsum (fam c r u nmin nmax g h) (fam c' r' u' nmin' nmax' g' h') = 0.
Proof.
  intros H. unfold epsum. apply Rsum_map_0. intros e He. apply Rsum_map_0. intros f Hf. unfold fam in He, Hf.
  apply in_flat_map in He. destruct He as (n & Hn & He). apply in_map_iff in He. destruct He as (m & <- & Hm).
  apply in_flat_map in Hf. destruct Hf as (n' & Hn' & Hf). apply in_map_iff in Hf. destruct Hf as (m' & <- & Hm').
  unfold epair. cbn [e_n e_m e_g e_h e_c e_r e_t]. destruct (Nat.eqb_spec n n') as [<-|]; [|reflexivity].
  destruct (m =? m')%nat; [|reflexivity]. cbn [andb]. rewrite H; [unfold Rdiv; ring|]. apply range_incl_spec in Hn. lia.
Qed.

(** Potential fields and toroidal fields *)
Definition pot (s : src) (a r : R) (nmin nmax : nat) g h :=
  fam (fun n => kk s n * rr s (r / a) n) (rr s (r / a)) (fun _ => 0) nmin nmax g h.
Definition tor (nmin nmax : nat) g h := fam (fun _ => 0) (fun _ => 0) (fun _ => 1) nmin nmax g h.

Lemma pot_clo s a r nmin nmax mmax g h t p : (nmax <= mmax)%nat ->
  esum vr (pot s a r nmin nmax g h) t p = clo_r s a nmin nmax mmax g h r t p /\
  esum vt (pot s a r nmin nmax g h) t p = clo_t s a nmin nmax mmax g h r t p /\
  esum vp (pot s a r nmin nmax g h) t p = clo_p s a nmin nmax mmax g h r t p.
Proof.
  intros Hm. unfold esum, pot, fam, clo_r, clo_t, clo_p. rewrite !Rsum_flat_map.
  split; [|split]; apply Rsum_map_ext; intros n Hn; apply range_incl_spec in Hn; rewrite map_map.
  - unfold sum_r. rewrite Nat.min_l by lia. rewrite <- !Rsum_map_scal. apply Rsum_map_ext. intros m _.
    unfold vr, eang, ang. cbn [e_n e_m e_g e_h e_c e_r e_t]. ring.
  - unfold sum_t. rewrite Nat.min_l by lia. rewrite <- !Rsum_map_scal. apply Rsum_map_ext. intros m _.
    unfold vt, eang, ang. cbn [e_n e_m e_g e_h e_c e_r e_t]. ring.
  - unfold sum_p. rewrite Nat.min_l by lia. rewrite <- !Rsum_map_scal. apply Rsum_map_ext. intros m _.
    unfold vp, eang', ang'. cbn [e_n e_m e_g e_h e_c e_r e_t]. ring.
Qed.

(** The spectra *)
Definition wfac (s : src) (a r : R) (n : nat) : R :=
  match s with Internal => INR (n + 1) * (a / r) ^ (2 * n + 4) | External => INR n * (r / a) ^ (2 * n - 2) end.

Lemma pot_fac s a r n : 0 < a -> 0 < r -> (1 <= n)%nat ->
  (kk s n * rr s (r / a) n * (kk s n * rr s (r / a) n) + INR n * (INR n + 1) * (rr s (r / a) n * rr s (r / a) n + 0 * 0)) / (2 * INR n + 1)
  = wfac s a r n.
Proof.
  intros Ha Hr Hn. pose proof (pos_INR n). unfold kk, rr, wfac. destruct s.
  - replace (/ (r / a) ^ (n + 2)) with ((a / r) ^ (n + 2)).
    + replace (2 * n + 4)%nat with ((n + 2) + (n + 2))%nat by lia. rewrite (pow_add (a / r) (n + 2) (n + 2)), plus_INR. cbn [INR]. field. lra.
    + rewrite <- pow_inv. f_equal. field. lra.
  - replace (2 * n - 2)%nat with ((n - 1) + (n - 1))%nat by lia. rewrite (pow_add (r / a) (n - 1) (n - 1)). field. lra.
Qed.

Lemma spectrum_value s a l r N W : 0 < a -> 0 < r -> List.length l = (N * (N + 2))%nat ->
  power_spectrum a (vec 0 l) (Some r) None (Some (src_name s)) None = Ok W ->
  sh W = [N] /\ forall n, (1 <= n <= N)%nat -> at_ W [(n - 1)%nat] = wfac s a r n * degree_power l n.
Proof.
  intros Ha Hr L E. destruct s.
  - destruct (C35_internal a l r None W N Ha Hr L E) as (K & A & B & C). assert (K = N) by lia. subst K. split; [exact A|exact C].
  - destruct (C35_external a l r None W N Ha Hr L E) as (K & A & B & C). assert (K = N) by lia. subst K. split; [exact A|exact C].
Qed.

Definition gl (l : list R) (n m : nat) : R := nth (g_position n m) l 0.
Definition hl (l : list R) (n m : nat) : R := nth (h_position n m) l 0.

Lemma dsum_power l n : dsum (gl l) (hl l) (gl l) (hl l) n = degree_power l n.
Proof. unfold dsum, degree_power. apply Rsum_map_ext. intros m _. unfold gl, hl. destruct (m =? 0)%nat; ring. Qed.
Lemma dsum_product l l' n : dsum (gl l) (hl l) (gl l') (hl l') n = degree_product l l' n.
Proof. reflexivity. Qed.

Lemma degree_block_gauss l N n : List.length l = (N * (N + 2))%nat -> (1 <= n <= N)%nat ->
  degree_block l n = gauss_list n n n (gl l) (hl l) ++ [].
Proof.
  intros L Hn. unfold degree_block. rewrite app_nil_r.
  pose proof (blk_rep N 1 l n) as B. rewrite count_full, Nat.min_l in B by lia.
  rewrite <- B by nia. unfold gauss_list, range_incl. replace (n + 1 - n)%nat with 1%nat by lia. cbn [seq flat_map]. rewrite app_nil_r.
  unfold blk. rewrite !Nat.min_l by lia. f_equal.
  - unfold gof, gpos, gl, g_position. rewrite count_full by lia. cbn [Nat.eqb]. f_equal. lia.
  - rewrite !flat_map_concat_map. f_equal. apply map_ext_in. intros m Hm. apply in_seq in Hm.
    unfold gof, hof, gpos, hpos, gl, hl, g_position, h_position. rewrite count_full by lia.
    destruct (Nat.eqb_spec m 0); [lia|]. replace (n * n - 1 + (2 * m - 1))%nat with (n * n + 2 * m - 2)%nat by nia. reflexivity.
Qed.

Lemma all_gauss l N : List.length l = (N * (N + 2))%nat -> exists rest, l = gauss_list 1 N N (gl l) (hl l) ++ rest.
Proof. intros L. apply gauss_positions. lia. Qed.

(** Fields given by synth_values *)
Definition call (oob a : R) (l : list R) (r : R) (nmin nmax : nat) (s : src) (t p : R) : result field :=
  synth_values oob a (cvec l) (scalar r) (scalar (deg t)) (scalar (deg p))
    (Some (Z.of_nat nmin)) (Some (Z.of_nat nmax)) (Some (Z.of_nat nmax)) (Some (src_name s)) false.

Lemma rad_deg x : rad (deg x) = x.
Proof. unfold rad, deg. field. apply PI_neq0. Qed.

Lemma call_field oob a l r nmin nmax s g h rest : (1 <= nmin <= nmax)%nat -> l = gauss_list nmin nmax nmax g h ++ rest ->
  exists F : R -> R -> field, (forall t p, 0 <= t <= PI -> call oob a l r nmin nmax s t p = Ok (F t p)) /\
  forall t p, 0 <= t <= PI ->
    f_r (F t p) [] = esum vr (pot s a r nmin nmax g h) t p /\
    f_t (F t p) [] = esum vt (pot s a r nmin nmax g h) t p /\
    f_p (F t p) [] = esum vp (pot s a r nmin nmax g h) t p.
Proof.
  intros Hn E.
  exists (fun t p => match call oob a l r nmin nmax s t p with Ok F => F | Err _ => mkfield [] (fun _ => 0) (fun _ => 0) (fun _ => 0) end).
  assert (X : forall t p, 0 <= t <= PI -> exists F, call oob a l r nmin nmax s t p = Ok F /\
    f_r F [] = esum vr (pot s a r nmin nmax g h) t p /\
    f_t F [] = esum vt (pot s a r nmin nmax g h) t p /\
    f_p F [] = esum vp (pot s a r nmin nmax g h) t p).
  { intros t p Ht. pose proof PI_RGT_0.
    destruct (sv_scalar oob a l r (deg t) (deg p) nmin nmax nmax s g h rest Hn) as (F & EF & _ & X1 & X2 & X3).
    - unfold deg. split; [apply Rmult_le_pos; [nra|left; apply Rinv_0_lt_compat; lra]|].
      apply (Rmult_le_reg_r PI); [lra|]. unfold Rdiv. rewrite Rmult_assoc, Rinv_l by lra. nra.
    - exact E.
    - exists F. split; [exact EF|]. rewrite !rad_deg in X1, X2, X3.
      destruct (pot_clo s a r nmin nmax nmax g h t p (le_n _)) as (Y1 & Y2 & Y3). rewrite Y1, Y2, Y3. auto. }
  split; intros t p Ht; destruct (X t p Ht) as (F & EF & Y); rewrite EF; [reflexivity|exact Y].
Qed.

Lemma field_dot_mean (F F' : R -> R -> field) E E' : good E -> good E' ->
  (forall t p, 0 <= t <= PI -> f_r (F t p) [] = esum vr E t p /\ f_t (F t p) [] = esum vt E t p /\ f_p (F t p) [] = esum vp E t p) ->
  (forall t p, 0 <= t <= PI -> f_r (F' t p) [] = esum vr E' t p /\ f_t (F' t p) [] = esum vt E' t p /\ f_p (F' t p) [] = esum vp E' t p) ->
  sphere_mean (fun t p => f_r (F t p) [] * f_r (F' t p) [] + f_t (F t p) [] * f_t (F' t p) [] + f_p (F t p) [] * f_p (F' t p) []) (epsum E E').
Proof.
  intros G G' H H'. apply (sphere_mean_ext (edot E E')); [|apply edot_mean; assumption].
  intros t p Ht. destruct (H t p ltac:(lra)) as (-> & -> & ->). destruct (H' t p ltac:(lra)) as (-> & -> & ->). reflexivity.
Qed.

Lemma epsum_pot s a r nmin nmax g h g' h' : 0 < a -> 0 < r -> (1 <= nmin)%nat ->
  epsum (pot s a r nmin nmax g h) (pot s a r nmin nmax g' h') =
  Rsum (map (fun n => wfac s a r n * dsum g h g' h' n) (range_incl nmin nmax)).
Proof.
  intros Ha Hr Hn. unfold pot. rewrite epsum_fam. apply Rsum_map_ext. intros n Hi. apply range_incl_spec in Hi.
  rewrite (pot_fac s a r n Ha Hr) by lia. reflexivity.
Qed.

Lemma range_one n : range_incl n n = [n].
Proof. unfold range_incl. replace (n + 1 - n)%nat with 1%nat by lia. reflexivity. Qed.

Lemma C113_degree oob a l r s N W n : 0 < a -> 0 < r -> List.length l = (N * (N + 2))%nat ->
  power_spectrum a (vec 0 l) (Some r) None (Some (src_name s)) None = Ok W -> (1 <= n <= N)%nat ->
  exists F : R -> R -> field,
    (forall t p, 0 <= t <= PI -> call oob a (degree_block l n) r n n s t p = Ok (F t p)) /\
    sphere_mean (fun t p => f_r (F t p) [] ^ 2 + f_t (F t p) [] ^ 2 + f_p (F t p) [] ^ 2) (at_ W [(n - 1)%nat]).
Proof.
  intros Ha Hr L E Hn. destruct (spectrum_value s a l r N W Ha Hr L E) as [_ V]. rewrite (V n Hn).
  destruct (call_field oob a (degree_block l n) r n n s (gl l) (hl l) [] ltac:(lia) (degree_block_gauss l N n L Hn)) as (F & A & B).
  exists F. split; [exact A|].
  pose proof (field_dot_mean F F _ _ (fam_good _ _ _ _ _ _ _) (fam_good _ _ _ _ _ _ _) B B) as M.
  change (fam _ _ _ n n _ _) with (pot s a r n n (gl l) (hl l)) in M.
  rewrite epsum_pot, range_one in M by (assumption || lia). cbn [map Rsum fold_right] in M. rewrite Rplus_0_r, dsum_power in M.
  revert M. apply sphere_mean_ext. intros t p _. ring.
Qed.

Lemma C113_total oob a l r s N W : 0 < a -> 0 < r -> (1 <= N)%nat -> List.length l = (N * (N + 2))%nat ->
  power_spectrum a (vec 0 l) (Some r) None (Some (src_name s)) None = Ok W ->
  exists F : R -> R -> field,
    (forall t p, 0 <= t <= PI -> call oob a l r 1 N s t p = Ok (F t p)) /\
    sphere_mean (fun t p => f_r (F t p) [] ^ 2 + f_t (F t p) [] ^ 2 + f_p (F t p) [] ^ 2)
      (Rsum (map (fun n => at_ W [(n - 1)%nat]) (range_incl 1 N))).
Proof.
  intros Ha Hr HN L E. destruct (spectrum_value s a l r N W Ha Hr L E) as [_ V]. destruct (all_gauss l N L) as [rest G].
  destruct (call_field oob a l r 1 N s (gl l) (hl l) rest ltac:(lia) G) as (F & A & B).
  exists F. split; [exact A|].
  pose proof (field_dot_mean F F _ _ (fam_good _ _ _ _ _ _ _) (fam_good _ _ _ _ _ _ _) B B) as M.
  change (fam _ _ _ 1%nat N _ _) with (pot s a r 1 N (gl l) (hl l)) in M.
  rewrite epsum_pot in M by (assumption || lia).
  rewrite (Rsum_map_ext _ (fun n => wfac s a r n * dsum (gl l) (hl l) (gl l) (hl l) n)).
  - revert M. apply sphere_mean_ext. intros t p _. ring.
  - intros n Hn. apply range_incl_spec in Hn. rewrite V, dsum_power by lia. reflexivity.
Qed.

(** Means of products of two models of the same source: degrees do not mix. *)
Lemma C115_product oob a l l' r s N n : 0 < a -> 0 < r -> List.length l = (N * (N + 2))%nat -> List.length l' = (N * (N + 2))%nat -> (1 <= n <= N)%nat ->
  exists F F' : R -> R -> field,
    (forall t p, 0 <= t <= PI -> call oob a (degree_block l n) r n n s t p = Ok (F t p)) /\
    (forall t p, 0 <= t <= PI -> call oob a (degree_block l' n) r n n s t p = Ok (F' t p)) /\
    sphere_mean (fun t p => f_r (F t p) [] * f_r (F' t p) [] + f_t (F t p) [] * f_t (F' t p) [] + f_p (F t p) [] * f_p (F' t p) [])
      (wfac s a r n * degree_product l l' n) /\
    sphere_mean (fun t p => f_r (F t p) [] ^ 2 + f_t (F t p) [] ^ 2 + f_p (F t p) [] ^ 2) (wfac s a r n * degree_power l n) /\
    sphere_mean (fun t p => f_r (F' t p) [] ^ 2 + f_t (F' t p) [] ^ 2 + f_p (F' t p) [] ^ 2) (wfac s a r n * degree_power l' n).
Proof.
  intros Ha Hr L L' Hn.
  destruct (call_field oob a (degree_block l n) r n n s (gl l) (hl l) [] ltac:(lia) (degree_block_gauss l N n L Hn)) as (F & A & B).
  destruct (call_field oob a (degree_block l' n) r n n s (gl l') (hl l') [] ltac:(lia) (degree_block_gauss l' N n L' Hn)) as (F' & A' & B').
  assert (X : forall (F1 F2 : R -> R -> field) k1 k2,
    (forall t p, 0 <= t <= PI -> f_r (F1 t p) [] = esum vr (pot s a r n n (gl k1) (hl k1)) t p /\ f_t (F1 t p) [] = esum vt (pot s a r n n (gl k1) (hl k1)) t p /\ f_p (F1 t p) [] = esum vp (pot s a r n n (gl k1) (hl k1)) t p) ->
    (forall t p, 0 <= t <= PI -> f_r (F2 t p) [] = esum vr (pot s a r n n (gl k2) (hl k2)) t p /\ f_t (F2 t p) [] = esum vt (pot s a r n n (gl k2) (hl k2)) t p /\ f_p (F2 t p) [] = esum vp (pot s a r n n (gl k2) (hl k2)) t p) ->
    sphere_mean (fun t p => f_r (F1 t p) [] * f_r (F2 t p) [] + f_t (F1 t p) [] * f_t (F2 t p) [] + f_p (F1 t p) [] * f_p (F2 t p) [])
      (wfac s a r n * dsum (gl k1) (hl k1) (gl k2) (hl k2) n)).
  { intros F1 F2 k1 k2 B1 B2. pose proof (field_dot_mean F1 F2 _ _ (fam_good _ _ _ _ _ _ _) (fam_good _ _ _ _ _ _ _) B1 B2) as M.
    change (fam _ _ _ n n (gl k1) (hl k1)) with (pot s a r n n (gl k1) (hl k1)) in M.
    change (fam _ _ _ n n (gl k2) (hl k2)) with (pot s a r n n (gl k2) (hl k2)) in M.
    rewrite epsum_pot, range_one in M by (assumption || lia). cbn [map Rsum fold_right] in M. rewrite Rplus_0_r in M. exact M. }
  exists F, F'. split; [exact A|]. split; [exact A'|]. split; [exact (X F F' l l' B B')|]. split.
  - rewrite <- dsum_power. generalize (X F F l l B B). apply sphere_mean_ext. intros t p _. ring.
  - rewrite <- dsum_power. generalize (X F' F' l' l' B' B'). apply sphere_mean_ext. intros t p _. ring.
Qed.

(** Toroidal fields *)
Lemma tor_field l N Bt Bp :
  (forall t p, 0 < t < PI -> is_derive (fun x => toroidal_scalar l N t x) p (sin t * Bt t p)) ->
  (forall t p, 0 < t < PI -> is_derive (fun x => toroidal_scalar l N x p) t (- Bp t p)) ->
  forall t p, 0 < t < PI -> Bt t p = esum vt (tor 1 N (gl l) (hl l)) t p /\ Bp t p = esum vp (tor 1 N (gl l) (hl l)) t p.
Proof.
  intros H1 H2 t p Ht. specialize (H1 t p Ht). specialize (H2 t p Ht). unfold toroidal_scalar in H1, H2.
  assert (Spos : 0 < sin t) by (apply sin_gt_0; lra).
  unfold esum, tor, fam. rewrite !Rsum_flat_map. split.
  - assert (D : is_derive (fun x => Rsum (map (fun n => Rsum (map (fun m => (nth (g_position n m) l 0 * cos (INR m * x) + nth (h_position n m) l 0 * sin (INR m * x)) * schmidt n m t)
        (range_incl 0 n))) (range_incl 1 N))) p
      (Rsum (map (fun n => Rsum (map (fun m => sin t * - (INR m * (gl l n m * sin (INR m * p) - hl l n m * cos (INR m * p)) * reg n m t)) (range_incl 0 n))) (range_incl 1 N)))).
    { apply (is_derive_Rsum (fun n x => Rsum (map (fun m => (nth (g_position n m) l 0 * cos (INR m * x) + nth (h_position n m) l 0 * sin (INR m * x)) * schmidt n m t) (range_incl 0 n)))).
      intros n _. apply (is_derive_Rsum (fun m x => (nth (g_position n m) l 0 * cos (INR m * x) + nth (h_position n m) l 0 * sin (INR m * x)) * schmidt n m t)).
      intros m _. fold (gl l n m). fold (hl l n m). destruct m as [|m].
      - cbn [INR]. auto_derive; [exact I|]. ring.
      - rewrite <- (reg_sin n (S m) t) by lia. generalize (INR (S m)) (reg n (S m) t) (gl l n (S m)) (hl l n (S m)). intros. auto_derive; [exact I|]. ring. }
    apply is_derive_unique in D. apply is_derive_unique in H1. rewrite H1 in D.
    apply (Rmult_eq_reg_l (sin t)); [|lra]. rewrite D. rewrite <- Rsum_map_scal. apply Rsum_map_ext. intros n _.
    rewrite map_map, <- Rsum_map_scal. apply Rsum_map_ext. intros m _. unfold vt, eang, eang'. cbn [e_n e_m e_g e_h e_c e_r e_t]. ring.
  - assert (D : is_derive (fun x => Rsum (map (fun n => Rsum (map (fun m => (nth (g_position n m) l 0 * cos (INR m * p) + nth (h_position n m) l 0 * sin (INR m * p)) * schmidt n m x)
        (range_incl 0 n))) (range_incl 1 N))) t
      (Rsum (map (fun n => Rsum (map (fun m => (gl l n m * cos (INR m * p) + hl l n m * sin (INR m * p)) * rawd n m t) (range_incl 0 n))) (range_incl 1 N)))).
    { apply (is_derive_Rsum (fun n x => Rsum (map (fun m => (nth (g_position n m) l 0 * cos (INR m * p) + nth (h_position n m) l 0 * sin (INR m * p)) * schmidt n m x) (range_incl 0 n)))).
      intros n _. apply (is_derive_Rsum (fun m x => (nth (g_position n m) l 0 * cos (INR m * p) + nth (h_position n m) l 0 * sin (INR m * p)) * schmidt n m x)).
      intros m _. apply is_derive_scalR. apply is_derive_schmidt_raw. }
    apply is_derive_unique in D. apply is_derive_unique in H2. rewrite H2 in D.
    transitivity (-1 * - Bp t p); [ring|]. rewrite D.
    rewrite <- Rsum_map_scal. apply Rsum_map_ext. intros n _.
    rewrite map_map, <- Rsum_map_scal. apply Rsum_map_ext. intros m _. unfold vp, eang, eang'. cbn [e_n e_m e_g e_h e_c e_r e_t]. ring.
Qed.

Lemma esum_app f E E' t p : esum f (E ++ E') t p = esum f E t p + esum f E' t p.
Proof. unfold esum. rewrite map_app, P_Synth.Rsum_app. reflexivity. Qed.
Lemma good_app E E' : good E -> good E' -> good (E ++ E').
Proof. intros A B e He. apply in_app_or in He. destruct He; auto. Qed.
Lemma epsum_app_l E E' X : epsum (E ++ E') X = epsum E X + epsum E' X.
Proof. unfold epsum. rewrite map_app, P_Synth.Rsum_app. reflexivity. Qed.
Lemma epsum_app_r X E E' : epsum X (E ++ E') = epsum X E + epsum X E'.
Proof. unfold epsum. rewrite <- Rsum_map_plus. apply Rsum_map_ext. intros e _. rewrite map_app, P_Synth.Rsum_app. reflexivity. Qed.

Lemma tor_r nmin nmax g h t p : esum vr (tor nmin nmax g h) t p = 0.
Proof.
  unfold esum. apply Rsum_map_0. intros e He. unfold tor, fam in He. apply in_flat_map in He. destruct He as (n & _ & He).
  apply in_map_iff in He. destruct He as (m & <- & _). unfold vr. cbn [e_c]. ring.
Qed.

Lemma epsum_tor l N W a r : 0 < a -> 0 < r -> List.length l = (N * (N + 2))%nat ->
  power_spectrum a (vec 0 l) (Some r) None (Some "toroidal"%string) None = Ok W ->
  epsum (tor 1 N (gl l) (hl l)) (tor 1 N (gl l) (hl l)) = Rsum (map (fun n => at_ W [(n - 1)%nat]) (range_incl 1 N)).
Proof.
  intros Ha Hr L E. destruct (C35_toroidal a l r None W N Ha Hr L E) as (K & A & B & C). assert (K = N) by lia. subst K.
  unfold tor. rewrite epsum_fam. apply Rsum_map_ext. intros n Hn. apply range_incl_spec in Hn. rewrite C, dsum_power by lia.
  rewrite mult_INR, !plus_INR, mult_INR. cbn [INR]. pose proof (pos_INR n). field. lra.
Qed.

Lemma C114_toroidal a l r N W Bt Bp : 0 < a -> 0 < r -> List.length l = (N * (N + 2))%nat ->
  power_spectrum a (vec 0 l) (Some r) None (Some "toroidal"%string) None = Ok W ->
  (forall t p, 0 < t < PI -> is_derive (fun x => toroidal_scalar l N t x) p (sin t * Bt t p)) ->
  (forall t p, 0 < t < PI -> is_derive (fun x => toroidal_scalar l N x p) t (- Bp t p)) ->
  sphere_mean (fun t p => Bt t p ^ 2 + Bp t p ^ 2) (Rsum (map (fun n => at_ W [(n - 1)%nat]) (range_incl 1 N))).
Proof.
  intros Ha Hr L E H1 H2. rewrite <- (epsum_tor l N W a r Ha Hr L E).
  pose proof (edot_mean _ _ (fam_good (fun _ => 0) (fun _ => 0) (fun _ => 1) 1 N (gl l) (hl l)) (fam_good (fun _ => 0) (fun _ => 0) (fun _ => 1) 1 N (gl l) (hl l))) as M.
  revert M. apply sphere_mean_ext. intros t p Ht. destruct (tor_field l N Bt Bp H1 H2 t p Ht) as [-> ->].
  unfold edot. fold (tor 1 N (gl l) (hl l)). rewrite tor_r. ring.
Qed.

Lemma C114_all oob a li le lt r Ni Ne Nt Wi We Wt Bt Bp : 0 < a -> 0 < r -> (1 <= Ni)%nat -> (1 <= Ne)%nat ->
  List.length li = (Ni * (Ni + 2))%nat -> List.length le = (Ne * (Ne + 2))%nat -> List.length lt = (Nt * (Nt + 2))%nat ->
  power_spectrum a (vec 0 li) (Some r) None (Some "internal"%string) None = Ok Wi ->
  power_spectrum a (vec 0 le) (Some r) None (Some "external"%string) None = Ok We ->
  power_spectrum a (vec 0 lt) (Some r) None (Some "toroidal"%string) None = Ok Wt ->
  (forall t p, 0 < t < PI -> is_derive (fun x => toroidal_scalar lt Nt t x) p (sin t * Bt t p)) ->
  (forall t p, 0 < t < PI -> is_derive (fun x => toroidal_scalar lt Nt x p) t (- Bp t p)) ->
  exists Fi Fe : R -> R -> field,
    (forall t p, 0 <= t <= PI -> call oob a li r 1 Ni Internal t p = Ok (Fi t p)) /\
    (forall t p, 0 <= t <= PI -> call oob a le r 1 Ne External t p = Ok (Fe t p)) /\
    sphere_mean (fun t p => (f_r (Fi t p) [] + f_r (Fe t p) []) ^ 2
                            + (f_t (Fi t p) [] + f_t (Fe t p) [] + Bt t p) ^ 2
                            + (f_p (Fi t p) [] + f_p (Fe t p) [] + Bp t p) ^ 2)
      (Rsum (map (fun n => at_ Wi [(n - 1)%nat]) (range_incl 1 Ni)) +
       Rsum (map (fun n => at_ We [(n - 1)%nat]) (range_incl 1 Ne)) +
       Rsum (map (fun n => at_ Wt [(n - 1)%nat]) (range_incl 1 Nt))).
Proof.
  intros Ha Hr HNi HNe Li Le Lt Ei Ee Et H1 H2.
  destruct (spectrum_value Internal a li r Ni Wi Ha Hr Li Ei) as [_ Vi].
  destruct (spectrum_value External a le r Ne We Ha Hr Le Ee) as [_ Ve].
  destruct (all_gauss li Ni Li) as [resti Gi]. destruct (all_gauss le Ne Le) as [reste Ge].
  destruct (call_field oob a li r 1 Ni Internal (gl li) (hl li) resti ltac:(lia) Gi) as (Fi & Ai & Bi).
  destruct (call_field oob a le r 1 Ne External (gl le) (hl le) reste ltac:(lia) Ge) as (Fe & Ae & Be).
  exists Fi, Fe. split; [exact Ai|]. split; [exact Ae|].
  set (X := pot Internal a r 1 Ni (gl li) (hl li)) in *. set (Y := pot External a r 1 Ne (gl le) (hl le)) in *.
  set (T := tor 1 Nt (gl lt) (hl lt)).
  assert (GX : good X) by apply fam_good. assert (GY : good Y) by apply fam_good. assert (GT : good T) by apply fam_good.
  pose proof (edot_mean (X ++ Y ++ T) (X ++ Y ++ T) (good_app _ _ GX (good_app _ _ GY GT)) (good_app _ _ GX (good_app _ _ GY GT))) as M.
  assert (XX : epsum X X = Rsum (map (fun n => at_ Wi [(n - 1)%nat]) (range_incl 1 Ni))).
  { unfold X. rewrite epsum_pot by (assumption || lia). apply Rsum_map_ext. intros n Hn. apply range_incl_spec in Hn. rewrite Vi, dsum_power by lia. reflexivity. }
  assert (YY : epsum Y Y = Rsum (map (fun n => at_ We [(n - 1)%nat]) (range_incl 1 Ne))).
  { unfold Y. rewrite epsum_pot by (assumption || lia). apply Rsum_map_ext. intros n Hn. apply range_incl_spec in Hn. rewrite Ve, dsum_power by lia. reflexivity. }
  assert (TT : epsum T T = Rsum (map (fun n => at_ Wt [(n - 1)%nat]) (range_incl 1 Nt))) by (apply (epsum_tor lt Nt Wt a r Ha Hr Lt Et)).
  assert (XY : epsum X Y = 0).
  { apply epsum_zero. intros n Hn. unfold kk. rewrite plus_INR. cbn [INR]. ring. }
  assert (YX : epsum Y X = 0).
  { apply epsum_zero. intros n Hn. unfold kk. rewrite plus_INR. cbn [INR]. ring. }
  assert (XT : epsum X T = 0) by (apply epsum_zero; intros n Hn; ring).
  assert (TX : epsum T X = 0) by (apply epsum_zero; intros n Hn; ring).
  assert (YT : epsum Y T = 0) by (apply epsum_zero; intros n Hn; ring).
  assert (TY : epsum T Y = 0) by (apply epsum_zero; intros n Hn; ring).
  rewrite !epsum_app_l, !epsum_app_r, XX, YY, TT, XY, YX, XT, TX, YT, TY in M.
  match type of M with sphere_mean _ ?v => match goal with |- sphere_mean _ ?w => replace w with v by ring end end.
  revert M. apply sphere_mean_ext. intros t p Ht. destruct (tor_field lt Nt Bt Bp H1 H2 t p Ht) as [-> ->].
  destruct (Bi t p ltac:(lra)) as (-> & -> & ->). destruct (Be t p ltac:(lra)) as (-> & -> & ->).
  unfold edot. rewrite !esum_app. fold T. replace (esum vr T t p) with 0 by (symmetry; apply tor_r). ring.
Qed.
